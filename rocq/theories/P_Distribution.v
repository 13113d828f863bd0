(** Proofs about Distribution1D / Distribution2D. *)
From Coq Require Import Reals Lra Lia List Bool ZArith Psatz.
From Verif Require Import Base M_MonteCarlo S_MonteCarlo.
Import ListNotations.
Open Scope R_scope.

Lemma cum_length n : forall arr acc, length (cum n acc arr) = S (length arr).
Proof. induction arr as [|x arr IH]; intros acc; cbn; auto. Qed.
Lemma cum_nth n : forall arr acc i, (i <= length arr)%nat ->
  nth i (cum n acc arr) 0 = acc + rsum (firstn i arr) / n.
Proof.
  induction arr as [|x arr IH]; intros acc i Hi; cbn [length] in Hi.
  - assert (i = 0)%nat as -> by lia. cbn. unfold Rdiv; ring.
  - destruct i as [|i]; [cbn; unfold Rdiv; ring|].
    change (cum n acc (x :: arr)) with (acc :: cum n (acc + x / n) arr). cbn [nth firstn].
    rewrite IH by lia. change (rsum (x :: firstn i arr)) with (x + rsum (firstn i arr)). unfold Rdiv; ring.
Qed.
Lemma last_nth {A} (l : list A) d : last l d = nth (pred (length l)) l d.
Proof.
  induction l as [|x [|y l] IH]; auto.
Qed.
Lemma raw_eq arr : d_raw (dist1_make arr) = rsum arr / INR (length arr).
Proof.
  unfold dist1_make; cbn [d_raw]. rewrite last_nth, cum_length. cbn [pred].
  rewrite cum_nth by lia. rewrite firstn_all. unfold Rdiv; ring.
Qed.
Lemma rsum_app a b : rsum (a ++ b) = rsum a + rsum b.
Proof. unfold rsum in *. induction a as [|x a IH]; cbn; [ring|]. rewrite IH. ring. Qed.
Lemma rsum_nonneg l : Forall (fun x => 0 <= x) l -> 0 <= rsum l.
Proof. unfold rsum. induction 1; cbn; lra. Qed.
Lemma table_len arr : table_ok arr -> (0 < length arr)%nat.
Proof. intros [_ H]. destruct arr; cbn in *; [lra|lia]. Qed.
Lemma INR_len_pos {A} (arr : list A) : (0 < length arr)%nat -> 0 < INR (length arr).
Proof. intros. now apply lt_0_INR. Qed.
Lemma raw_pos arr : table_ok arr -> 0 < d_raw (dist1_make arr).
Proof.
  intros H. rewrite raw_eq. apply Rdiv_lt_0_compat; [apply H|]. apply INR_len_pos, (table_len _ H).
Qed.
Lemma cdf_length arr : length (d_cdf (dist1_make arr)) = S (length arr).
Proof. unfold dist1_make; cbn [d_cdf]. now rewrite map_length, cum_length. Qed.
Lemma cdf_nth arr i : table_ok arr -> (i <= length arr)%nat ->
  nth i (d_cdf (dist1_make arr)) 0 = rsum (firstn i arr) / rsum arr.
Proof.
  intros H Hi. pose proof (raw_pos _ H) as P. rewrite raw_eq in P.
  unfold dist1_make; cbn [d_cdf].
  change (last (cum (INR (length arr)) 0 arr) 0) with (d_raw (dist1_make arr)). rewrite raw_eq.
  rewrite nth_indep with (d' := (fun x => x / (rsum arr / INR (length arr))) 0)
    by (rewrite map_length, cum_length; lia).
  rewrite (map_nth (fun x => x / (rsum arr / INR (length arr)))), cum_nth by auto.
  field. pose proof (INR_len_pos arr (table_len arr H)). destruct H as [_ H']. lra.
Qed.
Lemma firstn_S_sum : forall arr i, (i < length arr)%nat ->
  rsum (firstn (S i) arr) = rsum (firstn i arr) + nth i arr 0.
Proof.
  induction arr as [|x arr IH]; intros i Hi; cbn in Hi; [lia|]. destruct i as [|i].
  - cbn. ring.
  - change (rsum (firstn (S (S i)) (x :: arr))) with (x + rsum (firstn (S i) arr)).
    change (rsum (firstn (S i) (x :: arr))) with (x + rsum (firstn i arr)).
    rewrite IH by lia. cbn [nth]. ring.
Qed.
Lemma nth_nonneg arr i : Forall (fun x => 0 <= x) arr -> 0 <= nth i arr 0.
Proof.
  intros H. destruct (Nat.lt_ge_cases i (length arr)).
  - rewrite Forall_forall in H. apply H, nth_In. auto.
  - rewrite nth_overflow by auto. lra.
Qed.
Lemma firstn_sum_mono arr i j : Forall (fun x => 0 <= x) arr -> (i <= j)%nat -> 
  rsum (firstn i arr) <= rsum (firstn j arr).
Proof.
  intros F H. induction H; [lra|].
  destruct (Nat.lt_ge_cases m (length arr)).
  - rewrite firstn_S_sum by auto. pose proof (nth_nonneg arr m F). lra.
  - rewrite (firstn_all2 arr (n := S m)) by lia. rewrite (firstn_all2 arr (n := m)) in IHle by lia. lra.
Qed.

(** ** the specification integral *)
Lemma mass_zero n : 0 < n -> forall arr i x, x <= INR i / n -> mass_from n i arr x = 0.
Proof.
  intros Hn. induction arr as [|f arr IH]; intros i x H; cbn [mass_from]; auto.
  rewrite IH.
  - assert (0 < / n) by now apply Rinv_0_lt_compat. rewrite Rmin_right by lra. rewrite Rmax_left by lra. ring.
  - rewrite S_INR. unfold Rdiv in *. assert (0 < / n) by now apply Rinv_0_lt_compat. nra.
Qed.
Lemma mass_at n : 0 < n -> forall arr i k x, (k < length arr)%nat ->
  INR (i + k) / n <= x <= INR (S (i + k)) / n ->
  mass_from n i arr x = rsum (firstn k arr) / n + nth k arr 0 * (x - INR (i + k) / n).
Proof.
  intros Hn. assert (IP : 0 < / n) by now apply Rinv_0_lt_compat.
  induction arr as [|f arr IH]; intros i k x Hk H; cbn [length] in Hk; [lia|]. cbn [mass_from].
  destruct k as [|k].
  - rewrite Nat.add_0_r in *. rewrite S_INR in H. 
    rewrite (mass_zero n Hn arr (S i)) by (rewrite S_INR; lra).
    unfold Rdiv in *.
    rewrite Rmin_right by lra. rewrite Rmax_right by lra. cbn. ring.
  - rewrite (IH (S i) k x); [|lia|].
    + replace (S i + k)%nat with (i + S k)%nat by lia. cbn [nth firstn].
      change (rsum (f :: firstn k arr)) with (f + rsum (firstn k arr)).
      assert (INR i + 1 <= INR (i + S k)).
      { rewrite <- S_INR. apply le_INR. lia. }
      assert ((INR i + 1) / n <= x).
      { eapply Rle_trans; [|apply H]. unfold Rdiv. apply Rmult_le_compat_r; lra. }
      unfold Rdiv in *. rewrite Rmin_left by lra. rewrite Rmax_right by lra. ring.
    + replace (S i + k)%nat with (i + S k)%nat by lia. exact H.
Qed.
Lemma mass_one arr : (0 < length arr)%nat -> mass arr 1 = rsum arr / INR (length arr).
Proof.
  intros H. pose proof (INR_len_pos arr H) as P. unfold mass.
  rewrite (mass_at _ P arr 0 (pred (length arr)) 1); [|lia|].
  - rewrite Nat.add_0_l.
    assert (E : length arr = S (pred (length arr))) by lia.
    assert (Q : 1 - INR (pred (length arr)) / INR (length arr) = / INR (length arr)).
    { rewrite E at 2 3. rewrite S_INR. field. rewrite <- S_INR, <- E. lra. }
    rewrite Q.
    replace (rsum arr) with (rsum (firstn (S (pred (length arr))) arr)).
    + rewrite firstn_S_sum by lia. field. lra.
    + rewrite <- E. now rewrite firstn_all.
  - rewrite Nat.add_0_l. replace (S (pred (length arr))) with (length arr) by lia.
    split.
    + apply Rmult_le_reg_r with (INR (length arr)); auto. unfold Rdiv. rewrite Rmult_assoc, Rinv_l by lra.
      rewrite Rmult_1_r, Rmult_1_l. apply le_INR. lia.
    + right. field. lra.
Qed.
Lemma mass_cell arr k x : (k < length arr)%nat -> in_cell x k (length arr) ->
  mass arr x = (rsum (firstn k arr) + nth k arr 0 * (x * INR (length arr) - INR k)) / INR (length arr).
Proof.
  intros Hk Hx. assert (P : 0 < INR (length arr)) by (apply INR_len_pos; lia).
  unfold mass. rewrite (mass_at _ P arr 0 k x Hk) by exact Hx.
  rewrite Nat.add_0_l. field. lra.
Qed.

(** ** searchsorted *)
Lemma ss_spec : forall l u, let k := searchsorted l u in
  (k <= length l)%nat /\ (forall j, (j < k)%nat -> nth j l 0 < u) /\ ((k < length l)%nat -> u <= nth k l 0).
Proof.
  induction l as [|x l IH]; intros u; cbn [searchsorted].
  - cbn. repeat split; intros; lia.
  - destruct (Rltb x u) eqn:C; Rb.
    + destruct (IH u) as (A&B&D). cbn [length]. split; [lia|]. split.
      * intros [|j] Hj; cbn; auto. apply B. lia.
      * intros Hk. cbn. apply D. lia.
    + cbn [length]. split; [lia|]. split; [intros; lia|]. intros _. cbn. lra.
Qed.
Lemma off_spec arr u : table_ok arr -> 0 < u <= 1 ->
  let off := dist1_off (dist1_make arr) u in
  (off < length arr)%nat /\ nth off (d_cdf (dist1_make arr)) 0 < u <= nth (S off) (d_cdf (dist1_make arr)) 0.
Proof.
  intros H Hu. unfold dist1_off. destruct (ss_spec (d_cdf (dist1_make arr)) u) as (A&B&C).
  set (k := searchsorted _ u) in *. rewrite cdf_length in *.
  pose proof (table_len _ H) as L. destruct H as [HF HS].
  assert (Z0 : nth 0 (d_cdf (dist1_make arr)) 0 = 0) by (rewrite cdf_nth; [cbn; unfold Rdiv; ring|now split|lia]).
  assert (Z1 : nth (length arr) (d_cdf (dist1_make arr)) 0 = 1).
  { rewrite cdf_nth; [|now split|lia]. rewrite firstn_all. field. lra. }
  assert (K0 : k <> 0%nat).
  { intros E. rewrite E in C. specialize (C ltac:(lia)). lra. }
  assert (K1 : k <> S (length arr)).
  { intros E. specialize (B (length arr) ltac:(lia)). lra. }
  cbn zeta. split; [lia|]. split; [apply B; lia|]. replace (S (pred k)) with k by lia. apply C. lia.
Qed.
Lemma nth_res_ok {A} (l : list A) i d : (i < length l)%nat -> nth_res l i = Ok (nth i l d).
Proof. intros H. unfold nth_res. rewrite (nth_error_nth' l d H). reflexivity. Qed.

Lemma cdf_table arr : table_ok arr ->
  let c := d_cdf (dist1_make arr) in
  length c = S (length arr) /\ nth 0 c 0 = 0 /\ nth (length arr) c 0 = 1 /\
  (forall i j, (i <= j <= length arr)%nat -> nth i c 0 <= nth j c 0) /\
  (forall i, (i <= length arr)%nat -> nth i c 0 = mass arr (INR i / INR (length arr)) / mass arr 1).
Proof.
  intros H. cbn zeta. pose proof (table_len _ H) as L. destruct H as [HF HS].
  pose proof (INR_len_pos arr L) as P.
  split; [apply cdf_length|]. split; [rewrite cdf_nth; [cbn; unfold Rdiv; ring|now split|lia]|].
  split; [rewrite cdf_nth; [rewrite firstn_all; field; lra|now split|lia]|]. split.
  - intros i j Hij. rewrite !cdf_nth; try lia; try now split.
    apply Rmult_le_compat_r; [left; now apply Rinv_0_lt_compat|]. apply firstn_sum_mono; auto; lia.
  - intros i Hi. rewrite cdf_nth; [|now split|auto]. rewrite mass_one by auto.
    destruct (Nat.eq_dec i (length arr)) as [->|N].
    + rewrite firstn_all. replace (INR (length arr) / INR (length arr)) with 1 by (field; lra).
      rewrite mass_one by auto. field. split; lra.
    + rewrite (mass_cell arr i); [field; split; lra|lia|].
      unfold in_cell. rewrite S_INR. split; [lra|]. unfold Rdiv.
      apply Rmult_le_compat_r; [left; now apply Rinv_0_lt_compat|lra].
Qed.

Lemma cont_form arr u : table_ok arr -> 0 < u <= 1 ->
  exists off du, (off < length arr)%nat /\ 0 < du <= 1 /\ off = dist1_off (dist1_make arr) u /\
    0 < nth off arr 0 /\
    (du = 1 <-> u = nth (S off) (d_cdf (dist1_make arr)) 0) /\
    rsum (firstn off arr) + nth off arr 0 * du = u * rsum arr /\
    dist1_cont (dist1_make arr) u =
      Ok (Fin ((du + INR off) * / INR (length arr)), nth off arr 0 / d_raw (dist1_make arr)).
Proof.
  intros H Hu. destruct (off_spec arr u H Hu) as (L&A&B). set (off := dist1_off (dist1_make arr) u) in *.
  pose proof H as [HF HS].
  pose proof A as A'. pose proof B as B'.
  rewrite cdf_nth in A', B' by (auto; lia). rewrite firstn_S_sum in B' by auto.
  assert (A2 : rsum (firstn off arr) < u * rsum arr).
  { apply Rmult_lt_reg_r with (/ rsum arr); [now apply Rinv_0_lt_compat|].
    rewrite Rmult_assoc, Rinv_r, Rmult_1_r by lra. exact A'. }
  assert (B2 : u * rsum arr <= rsum (firstn off arr) + nth off arr 0).
  { apply Rmult_le_reg_r with (/ rsum arr); [now apply Rinv_0_lt_compat|].
    rewrite Rmult_assoc, Rinv_r, Rmult_1_r by lra. exact B'. }
  assert (F0 : 0 < nth off arr 0) by lra.
  exists off, ((u * rsum arr - rsum (firstn off arr)) / nth off arr 0).
  split; auto. split.
  { split; [apply Rdiv_lt_0_compat; lra|].
    apply Rmult_le_reg_r with (nth off arr 0); auto. unfold Rdiv. rewrite Rmult_assoc, Rinv_l by lra. lra. }
  split; auto. split; auto. split.
  { rewrite cdf_nth by (auto; lia). rewrite firstn_S_sum by auto. split.
    - intros E. apply Rmult_eq_reg_r with (rsum arr); [|lra].
      unfold Rdiv. rewrite Rmult_assoc, Rinv_l, Rmult_1_r by lra.
      apply (f_equal (Rmult (nth off arr 0))) in E. unfold Rdiv in E.
      replace (nth off arr 0 * ((u * rsum arr - rsum (firstn off arr)) * / nth off arr 0))
        with (u * rsum arr - rsum (firstn off arr)) in E by (field; lra). lra.
    - intros E. assert (E2 : u * rsum arr = rsum (firstn off arr) + nth off arr 0) by (rewrite E at 1; field; lra).
      rewrite E2. field. lra. }
  split; [field; lra|].
  unfold dist1_cont. fold off.
  rewrite (nth_res_ok _ off 0) by (rewrite cdf_length; lia).
  rewrite (nth_res_ok _ (S off) 0) by (rewrite cdf_length; lia). cbn [bind].
  change (d_func (dist1_make arr)) with arr. rewrite (nth_res_ok _ off 0) by auto. cbn [bind].
  unfold edivz. assert (Reqb (nth (S off) (d_cdf (dist1_make arr)) 0 - nth off (d_cdf (dist1_make arr)) 0) 0 = false) as ->.
  { apply Reqb_false. lra. }
  cbn [eadd emul]. unfold d_cnt. change (d_func (dist1_make arr)) with arr.
  rewrite !cdf_nth by (auto; lia). rewrite firstn_S_sum by auto.
  do 2 f_equal. do 2 f_equal. field. split; lra.
Qed.
Lemma dist1_cont_main arr u : table_ok arr -> 0 < u <= 1 ->
  exists x pdf k, dist1_cont (dist1_make arr) u = Ok (Fin x, pdf) /\
    0 < x <= 1 /\ (u < 1 -> x < 1) /\ mass arr x / mass arr 1 = u /\
    (k < length arr)%nat /\ in_cell x k (length arr) /\ pdf = nth k arr 0 / mass arr 1 /\ 0 < pdf.
Proof.
  intros H Hu. destruct (cont_form arr u H Hu) as (off&du&L&D&Eo&F0&D1&M&C).
  pose proof H as [HF HS]. pose proof (INR_len_pos arr (table_len _ H)) as P.
  pose proof (Rinv_0_lt_compat _ P) as IP.
  set (x := (du + INR off) * / INR (length arr)) in *.
  assert (XC : in_cell x off (length arr)).
  { unfold in_cell, x. rewrite S_INR. unfold Rdiv. split; apply Rmult_le_compat_r; lra. }
  assert (MX : mass arr x / mass arr 1 = u).
  { rewrite (mass_cell arr off x L XC), mass_one by (apply (table_len _ H)).
    unfold x. replace ((du + INR off) * / INR (length arr) * INR (length arr) - INR off) with du by (field; lra).
    rewrite M. field. split; lra. }
  assert (LE : INR off + 1 <= INR (length arr)) by (rewrite <- S_INR; apply le_INR; lia).
  assert (X1 : x <= 1).
  { unfold x. apply Rmult_le_reg_r with (INR (length arr)); auto. rewrite Rmult_assoc, Rinv_l by lra. lra. }
  exists x, (nth off arr 0 / d_raw (dist1_make arr)), off.
  split; [exact C|]. split.
  { split; auto. unfold x. apply Rmult_lt_0_compat; auto. pose proof (pos_INR off). lra. }
  split.
  { intros U1. destruct (Rle_lt_or_eq_dec _ _ X1) as [|E]; auto. exfalso.
    rewrite E in MX. unfold Rdiv in MX. rewrite Rinv_r in MX; [lra|].
    rewrite mass_one by (apply (table_len _ H)). apply Rgt_not_eq. apply Rdiv_lt_0_compat; auto. }
  split; auto. split; auto. split; auto.
  rewrite raw_eq, mass_one by (apply (table_len _ H)). split; auto.
  apply Rdiv_lt_0_compat; auto. now apply Rdiv_lt_0_compat.
Qed.
Lemma rsum_scale k l : rsum (map (fun x => x * k) l) = rsum l * k.
Proof. unfold rsum. induction l as [|x l IH]; cbn; [ring|]. rewrite IH. ring. Qed.
Lemma pdf_integrates arr : table_ok arr ->
  rsum (map (fun f => f / mass arr 1 * (1 / INR (length arr))) arr) = 1.
Proof.
  intros H. pose proof (INR_len_pos arr (table_len _ H)) as P. pose proof H as [_ HS].
  rewrite map_ext with (g := fun f => f * (/ mass arr 1 * (1 / INR (length arr)))) by (intros; unfold Rdiv; ring).
  rewrite rsum_scale, mass_one by (apply (table_len _ H)). field. split; lra.
Qed.
Lemma dist1_dis_main arr u : table_ok arr -> 0 < u <= 1 ->
  exists k pdf, dist1_dis (dist1_make arr) u = Ok (k, pdf) /\ (k < length arr)%nat /\ 
    let F i := mass arr (INR i / INR (length arr)) / mass arr 1 in
    F k < u <= F (S k) /\ pdf = F (S k) - F k /\ pdf = nth k arr 0 / rsum arr /\ 0 < pdf.
Proof.
  intros H Hu. destruct (off_spec arr u H Hu) as (L&A&B).
  set (off := dist1_off (dist1_make arr) u) in *.
  destruct (cdf_table arr H) as (_&_&_&_&CM).
  pose proof (INR_len_pos arr (table_len _ H)) as P. pose proof H as [HF HS].
  exists off. eexists. split.
  { unfold dist1_dis. fold off. change (d_func (dist1_make arr)) with arr. rewrite (nth_res_ok _ off 0) by auto.
    cbn [bind]. reflexivity. }
  split; auto. cbv beta zeta. rewrite <- !CM by lia.
  assert (PF : nth off arr 0 / (d_raw (dist1_make arr) * INR (d_cnt (dist1_make arr))) = nth off arr 0 / rsum arr).
  { rewrite raw_eq. unfold d_cnt. change (d_func (dist1_make arr)) with arr. field. lra. }
  rewrite PF. split; auto.
  assert (Q : nth off arr 0 / rsum arr = nth (S off) (d_cdf (dist1_make arr)) 0 - nth off (d_cdf (dist1_make arr)) 0).
  { rewrite !cdf_nth by (auto; lia). rewrite firstn_S_sum by auto. field. lra. }
  split; auto. split; auto. lra.
Qed.
Lemma dist1_zero_ok arr : table_ok arr -> 0 < nth 0 arr 0 ->
  dist1_cont (dist1_make arr) 0 = Ok (Fin 0, nth 0 arr 0 / mass arr 1).
Proof.
  intros H F. pose proof (table_len _ H) as L. pose proof (INR_len_pos arr L) as P. pose proof H as [HF HS].
  assert (Z0 : nth 0 (d_cdf (dist1_make arr)) 0 = 0) by (rewrite cdf_nth; [cbn; unfold Rdiv; ring|auto|lia]).
  assert (O : dist1_off (dist1_make arr) 0 = 0%nat).
  { unfold dist1_off. destruct (d_cdf (dist1_make arr)) as [|c cs] eqn:E; auto. cbn in Z0. subst c.
    cbn. now replace (Rltb 0 0) with false by (symmetry; apply Rltb_false; lra). }
  unfold dist1_cont. rewrite O.
  rewrite (nth_res_ok _ 0 0) by (rewrite cdf_length; lia).
  rewrite (nth_res_ok _ 1 0) by (rewrite cdf_length; lia). cbn [bind].
  change (d_func (dist1_make arr)) with arr. rewrite (nth_res_ok _ 0 0) by auto. cbn [bind].
  rewrite Z0. rewrite cdf_nth by (auto; lia). rewrite firstn_S_sum by auto. cbn [firstn].
  change (rsum []) with 0. unfold edivz.
  assert (0 < (0 + nth 0 arr 0) / rsum arr) by (apply Rdiv_lt_0_compat; lra).
  assert (Reqb ((0 + nth 0 arr 0) / rsum arr - 0) 0 = false) as -> by (apply Reqb_false; lra).
  cbn [eadd emul]. rewrite mass_one by auto. rewrite raw_eq.
  f_equal. f_equal. f_equal. cbn [INR]. unfold Rdiv. ring.
Qed.
Lemma dist1_zero_bad : exists arr, table_ok arr /\ exists pdf, dist1_cont (dist1_make arr) 0 = Ok (NaN, pdf).
Proof.
  exists [0; 1]. split.
  { split; [repeat constructor; lra|cbn; lra]. }
  unfold dist1_cont, dist1_off, dist1_make, cum, d_cnt; cbn.
  assert (Rltb (0 / (0 + 0 / (1 + 1) + 1 / (1 + 1))) 0 = false) as E by (apply Rltb_false; lra). rewrite E. cbn.
  eexists. f_equal. f_equal. unfold edivz.
  assert (Reqb ((0 + 0 / (1 + 1)) / (0 + 0 / (1 + 1) + 1 / (1 + 1)) - 0 / (0 + 0 / (1 + 1) + 1 / (1 + 1))) 0 = true) as ->
    by (apply Reqb_true; field).
  assert (Reqb (0 - 0 / (0 + 0 / (1 + 1) + 1 / (1 + 1))) 0 = true) as -> by (apply Reqb_true; field).
  reflexivity.
Qed.
