(** Proofs about concurrent film updates. *)
From Coq Require Import Reals Lra Lia List ZArith Bool.
From Verif Require Import Base M_Film S_Film P_Film M_FilmThreads S_FilmThreads.
Import ListNotations.
Open Scope R_scope.

Lemma pt_eqb_spec p q : reflect (p = q) (pt_eqb p q).
Proof.
  destruct p as [a b], q as [c d]; unfold pt_eqb; cbn.
  destruct (Z.eqb_spec a c), (Z.eqb_spec b d); cbn; constructor; congruence.
Qed.
Lemma addr_eqb_spec a b : reflect (a = b) (addr_eqb a b).
Proof.
  destruct a as [p fp], b as [q fq]; unfold addr_eqb; cbn.
  destruct (pt_eqb_spec p q); cbn; [|constructor; congruence].
  destruct fp, fq; cbn; constructor; congruence.
Qed.

(** pending increments of a cell *)
Fixpoint pend (a : addr) (c : list instr) : R :=
  match c with
  | [] => 0
  | Wr b d :: k => (if addr_eqb a b then d else 0) + pend a k
  | _ :: k => pend a k
  end.
Lemma pend_app a c c' : pend a (c ++ c') = pend a c + pend a c'.
Proof. induction c as [|[p|p|b|b d] c IH]; cbn; rewrite ?IH; lra. Qed.
Definition pend_all (a : addr) (ts : list thread) : R := rsum (map (fun t => pend a (code t)) ts).
Lemma rsum_app l m : rsum (l ++ m) = rsum l + rsum m.
Proof. induction l; cbn; lra. Qed.
Lemma pend_replace a ts i t t' : nth_error ts i = Some t ->
  pend_all a (replace_nth i t' ts) = pend_all a ts - pend a (code t) + pend a (code t').
Proof.
  unfold pend_all. revert i. induction ts as [|h ts IH]; intros [|i] H; cbn in *; try discriminate.
  - injection H as ->. lra.
  - rewrite (IH i H). lra.
Qed.
Lemma nth_error_replace {A} (a : A) l : forall i j, (i < length l)%nat ->
  nth_error (replace_nth i a l) j = if (j =? i)%nat then Some a else nth_error l j.
Proof. induction l as [|h l IH]; intros [|i] [|j] H; cbn in *; try lia; auto. apply IH; lia. Qed.
Lemma nth_error_lt {A} (l : list A) i x : nth_error l i = Some x -> (i < length l)%nat.
Proof. intros H. apply nth_error_Some. congruence. Qed.

Section Discipline.
  (** cells protected by their pixel's lock, and cells private to one thread *)
  Variable locked : addr -> Prop.
  Variable own : addr -> nat -> Prop.
  Hypothesis own_fun : forall a i j, own a i -> own a j -> i = j.
  Hypothesis own_locked : forall a i, own a i -> locked a -> False.

  Definition excl (i : nat) (h : option (Z * Z)) (a : addr) : Prop := (h = Some (fst a) /\ locked a) \/ own a i.
  Inductive wl (i : nat) : option (Z * Z) -> list instr -> Prop :=
  | wl_nil : wl i None []
  | wl_acq p k : wl i (Some p) k -> wl i None (Acq p :: k)
  | wl_rel p k : wl i None k -> wl i (Some p) (Rel p :: k)
  | wl_inc h a d k : excl i h a -> wl i h k -> wl i h (Rd a :: Wr a d :: k).

  Definition mode (c : conf) (i : nat) (t : thread) (h : option (Z * Z)) : Prop :=
    wl i h (code t) \/ exists a d k, code t = Wr a d :: k /\ excl i h a /\ wl i h k /\ reg t = mem c a.
  Definition inv (c : conf) : Prop :=
    (forall i t, nth_error (threads c) i = Some t ->
       exists h, mode c i t h /\ forall p, lock c p = Some i <-> h = Some p) /\
    (forall p i, lock c p = Some i -> (i < length (threads c))%nat).

  Lemma wl_app i h c c' : wl i h c -> wl i None c' -> wl i h (c ++ c').
  Proof. induction 1; cbn; intros; auto; constructor; auto. Qed.

  Lemma inv_step c i c' : inv c -> step c i c' ->
    inv c' /\ forall a, mem c' a + pend_all a (threads c') = mem c a + pend_all a (threads c).
  Proof.
    intros [I1 I2] S. inversion S as [m l ts i0 a k r NE|m l ts i0 a d k r NE|m l ts i0 p k r NE LK|m l ts i0 p k r NE]; subst;
      cbn [mem lock threads] in *; pose proof (nth_error_lt _ _ _ NE) as LT.
    - (* Rd *)
      split.
      + split; cbn [mem lock threads].
        * intros j t Hj. rewrite nth_error_replace in Hj by auto. destruct (Nat.eqb_spec j i) as [->|N].
          -- injection Hj as <-. destruct (I1 i _ NE) as (h&[W|(a'&d&k'&E&_)]&HL); [|cbn in E; discriminate].
             exists h. split; auto. cbn [code] in W. inversion W; subst. right. exists a, d, k0. cbn. auto.
          -- destruct (I1 j t Hj) as (h&M&HL). exists h. split; auto.
        * intros p j H. rewrite replace_nth_length. eauto.
      + intros b. rewrite (pend_replace b ts i _ _ NE). cbn. lra.
    - (* Wr *)
      destruct (I1 i _ NE) as (h&[W|(a'&d'&k'&E&EX&W&RG)]&HL); [cbn [code] in W; inversion W|].
      cbn [code reg] in E, RG. injection E as <- <- <-. subst r.
      split.
      + split; cbn [mem lock threads].
        * intros j t Hj. rewrite nth_error_replace in Hj by auto. destruct (Nat.eqb_spec j i) as [->|N].
          -- injection Hj as <-. exists h. split; auto. left. exact W.
          -- destruct (I1 j t Hj) as (h'&M&HL'). exists h'. split; auto.
             destruct M as [M|(b&e&k2&E2&EX2&W2&RG2)]; [now left|]. right. exists b, e, k2. repeat split; auto.
             cbn [mem] in *. unfold upd_mem. destruct (addr_eqb_spec b a) as [->|]; auto.
             exfalso. destruct EX as [[-> LKD]|O], EX2 as [[-> LKD2]|O2].
             ++ pose proof (proj2 (HL (fst a)) eq_refl). pose proof (proj2 (HL' (fst a)) eq_refl). congruence.
             ++ eauto.
             ++ eauto.
             ++ apply N. eapply own_fun; eauto.
        * intros p j H. rewrite replace_nth_length. eauto.
      + intros b. rewrite (pend_replace b ts i _ _ NE). cbn [code pend mem]. unfold upd_mem.
        destruct (addr_eqb_spec b a) as [->|]; lra.
    - (* Acq *)
      destruct (I1 i _ NE) as (h&[W|(a'&d'&k'&E&_)]&HL); [|cbn in E; discriminate].
      cbn [code] in W. inversion W as [|p' k' W'| |]; subst.
      split.
      + split; cbn [mem lock threads].
        * intros j t Hj. rewrite nth_error_replace in Hj by auto. destruct (Nat.eqb_spec j i) as [->|N].
          -- injection Hj as <-. exists (Some p). split; [left; exact W'|]. intros q. unfold upd_lock.
             destruct (pt_eqb_spec q p) as [->|NQ]; [tauto|]. split; [|congruence].
             intros Hq. apply HL in Hq. discriminate.
          -- destruct (I1 j t Hj) as (h'&M&HL'). exists h'. split; auto. intros q. unfold upd_lock.
             destruct (pt_eqb_spec q p) as [->|NQ]; auto. split; [intros E; congruence|].
             intros Hq. apply HL' in Hq. congruence.
        * intros q j. unfold upd_lock. rewrite replace_nth_length. destruct (pt_eqb_spec q p); eauto. congruence.
      + intros b. rewrite (pend_replace b ts i _ _ NE). cbn. lra.
    - (* Rel *)
      destruct (I1 i _ NE) as (h&[W|(a'&d'&k'&E&_)]&HL); [|cbn in E; discriminate].
      cbn [code] in W. inversion W as [| |p' k' W'|]; subst.
      split.
      + split; cbn [mem lock threads].
        * intros j t Hj. rewrite nth_error_replace in Hj by auto. destruct (Nat.eqb_spec j i) as [->|N].
          -- injection Hj as <-. exists None. split; [left; exact W'|]. intros q. unfold upd_lock.
             destruct (pt_eqb_spec q p) as [->|NQ]; [split; congruence|]. split; [|congruence].
             intros Hq. apply HL in Hq. congruence.
          -- destruct (I1 j t Hj) as (h'&M&HL'). exists h'. split; auto. intros q. unfold upd_lock.
             destruct (pt_eqb_spec q p) as [->|NQ]; auto. split; [congruence|].
             intros Hq. apply HL' in Hq. pose proof (proj2 (HL p) eq_refl). congruence.
        * intros q j. unfold upd_lock. rewrite replace_nth_length. destruct (pt_eqb_spec q p); eauto. congruence.
      + intros b. rewrite (pend_replace b ts i _ _ NE). cbn. lra.
  Qed.

  Lemma inv_exec c n c' : inv c -> exec c n c' ->
    inv c' /\ forall a, mem c' a + pend_all a (threads c') = mem c a + pend_all a (threads c).
  Proof.
    intros I E. induction E as [|c n c' i c'' E IH S]; [split; auto|].
    destruct (IH I) as [I' M]. destruct (inv_step _ _ _ I' S) as [I'' M']. split; auto.
    intros a. rewrite M'. apply M.
  Qed.

  Lemma progress c : inv c -> ~ finished c -> exists i c', step c i c'.
  Proof.
    intros [I1 I2] NF.
    assert (Q : (exists i t, nth_error (threads c) i = Some t /\ exists x k, code t = x :: k /\ (forall p, x <> Acq p)) \/
                (forall i t, nth_error (threads c) i = Some t -> code t = [] \/ exists p k, code t = Acq p :: k)).
    { destruct c as [m l ts]; cbn. clear. induction ts as [|t ts IH].
      - right. intros [|i] t H; discriminate.
      - destruct t as [[|[p|p|b|b d] k] r].
        2: { destruct IH as [(i&t&H&R)|H]; [left; exists (S i), t; auto|right]. intros [|i] t E; [injection E as <-; right; cbn; eauto|eauto]. }
        2-4: (left; exists 0%nat; eexists; split; [reflexivity|]; cbn; eexists _, _; split; [reflexivity|congruence]).
        destruct IH as [(i&t&H&R)|H]; [left; exists (S i), t; auto|right]. intros [|i] t E; [injection E as <-; now left|eauto]. }
    destruct c as [m l ts]. cbn [threads] in *.
    destruct Q as [(i&[c r]&NE&x&k&E&NA)|ALL].
    - cbn in E. subst c. exists i. destruct x as [p|p|b|b d]; [exfalso; eapply NA; eauto| | |]; eexists.
      + eapply StRel; eauto.
      + eapply StRd; eauto.
      + eapply StWr; eauto.
    - assert (EX : exists i t p k, nth_error ts i = Some t /\ code t = Acq p :: k).
      { assert (EXN : exists i t, nth_error ts i = Some t /\ code t <> []).
        { clear -NF. unfold finished in NF; cbn in NF. induction ts as [|t ts IH]; [exfalso; apply NF; constructor|].
          destruct (code t) eqn:E; [|exists 0%nat, t; cbn; split; auto; congruence].
          destruct IH as (i&t'&H); [intros F; apply NF; constructor; auto|]. exists (S i), t'. auto. }
        destruct EXN as (i&t&H&N). destruct (ALL i t H) as [|(p&k&E)]; [contradiction|]. eauto 6. }
      destruct EX as (i&[c r]&p&k&NE&E). cbn in E. subst c.
      assert (LN : l p = None).
      { destruct (l p) as [j|] eqn:LP; auto. exfalso.
        pose proof (I2 p j LP) as LT. cbn in LT. destruct (nth_error ts j) as [t|] eqn:EJ; [|apply nth_error_None in EJ; cbn in *; lia].
        destruct (I1 j t EJ) as (h&M&HL). cbn [lock] in HL. apply HL in LP. subst h.
        destruct (ALL j t EJ) as [E|(q&k'&E)]; destruct M as [W|(a&d&k2&E2&_)]; rewrite E in *; try discriminate; inversion W. }
      exists i. eexists. eapply StAcq; eauto.
  Qed.
End Discipline.

(** every step consumes one instruction *)
Lemma todo_replace ts i t t' : nth_error ts i = Some t -> (length (code t) = S (length (code t')))%nat ->
  (S (list_sum (map (fun t => length (code t)) (replace_nth i t' ts))) = list_sum (map (fun t => length (code t)) ts))%nat.
Proof.
  revert i; induction ts as [|h ts IH]; intros [|i] H L; try discriminate H.
  - cbn in H. injection H as ->. cbn [replace_nth map list_sum fold_right]. unfold list_sum. cbn [fold_right]. lia.
  - cbn [nth_error] in H. specialize (IH i H L). cbn [replace_nth map]. unfold list_sum in *. cbn [fold_right]. lia.
Qed.
Lemma step_todo c i c' : step c i c' -> (S (todo c') = todo c)%nat.
Proof. intros S. inversion S; subst; unfold todo; cbn [threads]; eapply todo_replace; eauto. Qed.
Lemma exec_todo c n c' : exec c n c' -> (n + todo c' = todo c)%nat.
Proof. induction 1 as [|c n c' i c'' E IH S]; auto. apply step_todo in S. lia. Qed.
