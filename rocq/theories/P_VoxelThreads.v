(** Lazy voxel refinement is safe under every schedule (C67). *)
From Coq Require Import List Arith Bool Lia.
From Verif Require Import M_VoxelThreads.
Import ListNotations.

Section Voxel.
Context {A B : Type} (refined : A -> B) (cells0 : list (@cell A B)).
Notation vstate := (@vstate A B).
Notation vstep := (vstep refined).
Definition fix_cell (c : @cell A B) : @cell A B := match c with inl a => inr (refined a) | inr b => inr b end.
Definition goal_cells : list (@cell A B) := map fix_cell cells0.

Lemma put_length (l : list (@cell A B)) : forall i c, length (put l i c) = length l.
Proof. induction l; destruct i; cbn; auto. Qed.
Lemma nth_put (l : list (@cell A B)) : forall i j c, nth_error (put l i c) j =
  if (i =? j) && (i <? length l) then Some c else nth_error l j.
Proof.
  induction l as [|x l IH]; intros [|i] [|j] c; cbn; auto.
  - now rewrite Bool.andb_false_r.
  - rewrite IH. now replace (S i <? S (length l)) with (i <? length l) by reflexivity.
Qed.

Definition crit (p : @pc A B) : Prop :=
  match p with Look _ | Put _ _ | SetFlag | Release => True | _ => False end.
(** cells up to [k] hold their final value *)
Definition fixed_upto (l : list (@cell A B)) (k : nat) : Prop :=
  forall i, i < k -> nth_error l i = nth_error goal_cells i.
Definition all_fixed (l : list (@cell A B)) : Prop := l = goal_cells.

Record inv (s : vstate) : Prop := mkInv {
  i_len : length (v_cells s) = length cells0;
  i_cell : forall i c, nth_error (v_cells s) i = Some c ->
     (nth_error cells0 i = Some c /\ (forall a, c = inl a -> ~ In i (v_log s))) \/
     (nth_error goal_cells i = Some c);
  i_log : NoDup (v_log s) /\ forall i, In i (v_log s) -> exists a, nth_error cells0 i = Some (inl a);
  i_flag : v_flag s = true -> all_fixed (v_cells s);
  i_lock : forall t, crit (v_pc s t) -> v_lock s = Some t;
  i_lock2 : forall t, v_lock s = Some t -> crit (v_pc s t);
  i_look : forall t i, v_pc s t = Look i -> fixed_upto (v_cells s) i;
  i_put : forall t i a, v_pc s t = Put i a -> fixed_upto (v_cells s) i /\ nth_error (v_cells s) i = Some (inl a);
  i_set : forall t, v_pc s t = SetFlag \/ v_pc s t = Release -> all_fixed (v_cells s);
  i_scan : forall t i u, v_pc s t = Scan i u -> all_fixed (v_cells s) /\
     map inr u = firstn i goal_cells;
  i_done : forall t u, v_pc s t = Done u -> u = expected refined cells0;
  i_ok : forall t a, v_pc s t <> Broken a }.

Lemma goal_length : length goal_cells = length cells0.
Proof. apply map_length. Qed.
Lemma goal_inr i c : nth_error goal_cells i = Some c -> exists b, c = inr b.
Proof.
  unfold goal_cells. rewrite nth_error_map. destruct (nth_error cells0 i) as [[a|b]|]; cbn; try discriminate;
  intros [= <-]; eauto.
Qed.
Lemma goal_expected : goal_cells = map inr (expected refined cells0).
Proof. unfold goal_cells, expected. rewrite map_map. apply map_ext. now intros [a|b]. Qed.

Lemma upd_same (f : nat -> @pc A B) t p : upd f t p t = p.
Proof. unfold upd. now rewrite Nat.eqb_refl. Qed.
Lemma upd_other (f : nat -> @pc A B) t p u : u <> t -> upd f t p u = f u.
Proof. unfold upd. intros H. now destruct (Nat.eqb_spec u t). Qed.

Lemma list_ext {X} (l l' : list X) : length l = length l' -> (forall i, i < length l -> nth_error l i = nth_error l' i) -> l = l'.
Proof.
  revert l'. induction l as [|x l IH]; intros [|y l'] HL H; cbn in HL; try discriminate; [reflexivity|].
  assert (E := H 0 ltac:(cbn; lia)). cbn in E. injection E as <-. f_equal. apply IH; [lia|].
  intros i Hi. apply (H (S i)). cbn; lia.
Qed.

Lemma firstn_snoc {X} (l : list X) i x : nth_error l i = Some x -> firstn (S i) l = firstn i l ++ [x].
Proof.
  revert i. induction l as [|y l IH]; intros [|i]; cbn; try discriminate; [now intros [= ->]|].
  intros H. f_equal. now apply IH.
Qed.

(** a step that only moves the program counter of [t] *)
Lemma inv_goto s t p : inv s ->
  (crit p <-> crit (v_pc s t)) ->
  (forall i, p = Look i -> fixed_upto (v_cells s) i) ->
  (forall i a, p = Put i a -> fixed_upto (v_cells s) i /\ nth_error (v_cells s) i = Some (inl a)) ->
  (p = SetFlag \/ p = Release -> all_fixed (v_cells s)) ->
  (forall i u, p = Scan i u -> all_fixed (v_cells s) /\ map inr u = firstn i goal_cells) ->
  (forall u, p = Done u -> u = expected refined cells0) -> (forall a, p <> Broken a) ->
  inv (goto s t p).
Proof.
  intros I HC H1 H2 H3 H4 H5 H6. destruct I. constructor; cbn; auto.
  - intros u Hu. destruct (Nat.eq_dec u t) as [->|N]; [rewrite upd_same in Hu|rewrite upd_other in Hu by auto]; auto.
    apply i_lock0. now apply HC.
  - intros u Hu. destruct (Nat.eq_dec u t) as [->|N]; [rewrite upd_same|rewrite upd_other by auto]; auto.
    apply HC. auto.
  - intros u i Hu. destruct (Nat.eq_dec u t) as [->|N]; [rewrite upd_same in Hu|rewrite upd_other in Hu by auto]; eauto.
  - intros u i a Hu. destruct (Nat.eq_dec u t) as [->|N]; [rewrite upd_same in Hu|rewrite upd_other in Hu by auto]; eauto.
  - intros u Hu. destruct (Nat.eq_dec u t) as [->|N]; [rewrite upd_same in Hu|rewrite upd_other in Hu by auto]; eauto.
  - intros u i l Hu. destruct (Nat.eq_dec u t) as [->|N]; [rewrite upd_same in Hu|rewrite upd_other in Hu by auto]; eauto.
  - intros u l Hu. destruct (Nat.eq_dec u t) as [->|N]; [rewrite upd_same in Hu|rewrite upd_other in Hu by auto]; eauto.
  - intros u a. destruct (Nat.eq_dec u t) as [->|N]; [rewrite upd_same|rewrite upd_other by auto]; eauto.
Qed.

Lemma inv_init : inv (vinit cells0).
Proof.
  constructor.
  - reflexivity.
  - intros i c H. left. split; [exact H|]. intros a _ [].
  - split; [constructor|intros i []].
  - discriminate.
  - intros t [].
  - discriminate.
  - discriminate.
  - discriminate.
  - intros t [H|H]; discriminate.
  - discriminate.
  - discriminate.
  - discriminate.
Qed.

Ltac other u t := destruct (Nat.eq_dec u t) as [->|?]; [rewrite ?upd_same in *|rewrite ?upd_other in * by assumption].

Lemma inv_step s t s' : inv s -> vstep t s s' -> inv s'.
Proof.
  intros I H. assert (I' := I). destruct I'. destruct H as
    [P|P F|P F|P L|i b P E|i a P E|i P E|i a P|P|P|i u b P E|i u a P E|i u P E|u P].
  - apply inv_goto; auto; try (rewrite P; cbn; tauto); try discriminate; try (intros [H|H]; discriminate).
  - apply inv_goto; auto; try (rewrite P; cbn; tauto); try discriminate; try (intros [H|H]; discriminate).
    intros i u [= <- <-]. split; auto.
  - apply inv_goto; auto; try (rewrite P; cbn; tauto); try discriminate; try (intros [H|H]; discriminate).
  - (* acquire *)
    constructor; cbn; auto.
    + intros u Hu. other u t; auto. exfalso. apply i_lock0 in Hu. congruence.
    + intros u [= <-]. now rewrite upd_same.
    + intros u i Hu. other u t; [injection Hu as <-; intros j Hj; lia|eauto].
    + intros u i a Hu. other u t; [discriminate|eauto].
    + intros u Hu. other u t; [destruct Hu; discriminate|eauto].
    + intros u i l Hu. other u t; [discriminate|eauto].
    + intros u l Hu. other u t; [discriminate|eauto].
    + intros u a. other u t; [discriminate|eauto].
  - apply inv_goto; auto; try (rewrite P; cbn; tauto); try discriminate; try (intros [H|H]; discriminate).
    intros j [= <-] k Hk. destruct (Nat.eq_dec k i) as [->|]; [|eapply i_look0; eauto; lia].
    rewrite E. destruct (i_cell0 _ _ E) as [[Q _]|Q]; [|now rewrite Q].
    unfold goal_cells. rewrite nth_error_map, Q. reflexivity.
  - apply inv_goto; auto; try (rewrite P; cbn; tauto); try discriminate; try (intros [H|H]; discriminate).
    intros j a' [= <- <-]. split; [eapply i_look0; eauto|exact E].
  - apply inv_goto; auto; try (rewrite P; cbn; tauto); try discriminate.
    intros _. apply list_ext; [rewrite goal_length; auto|]. intros j Hj. eapply i_look0; eauto.
    apply nth_error_None in E. lia.
  - (* put *)
    destruct (i_put0 _ _ _ P) as [FU Ec].
    assert (LT : i < length (v_cells s)) by (apply nth_error_Some; congruence).
    assert (ORIG : nth_error cells0 i = Some (inl a) /\ ~ In i (v_log s)).
    { destruct (i_cell0 _ _ Ec) as [[Q N]|Q]; [split; [exact Q|now apply (N a)]|].
      apply goal_inr in Q. destruct Q; discriminate. }
    destruct ORIG as [ORIG NIL].
    assert (GI : nth_error goal_cells i = Some (inr (refined a))).
    { unfold goal_cells. now rewrite nth_error_map, ORIG. }
    assert (LK : v_lock s = Some t) by (apply i_lock0; now rewrite P).
    assert (CR : forall u, u <> t -> ~ crit (v_pc s u)).
    { intros u Hu C. apply i_lock0 in C. congruence. }
    assert (NP : forall j, nth_error (put (v_cells s) i (inr (refined a))) j =
       if i =? j then Some (inr (refined a)) else nth_error (v_cells s) j).
    { intros j. rewrite nth_put. destruct (Nat.ltb_spec i (length (v_cells s))); [|lia]. now rewrite andb_true_r. }
    constructor; cbn [v_cells v_flag v_lock v_pc v_log].
    + now rewrite put_length.
    + intros j c. rewrite NP. destruct (Nat.eqb_spec i j) as [<-|N].
      * intros [= <-]. now right.
      * intros Hc. destruct (i_cell0 _ _ Hc) as [[Q M]|Q]; [left|now right]. split; [exact Q|].
        intros a' ->. intros [->|HI]; [now apply N|]. now apply (M a').
    + destruct i_log0 as [ND HI]. split; [now constructor|]. intros j [<-|Hj]; eauto.
    + intros F. exfalso. apply i_flag0 in F. unfold all_fixed in F. rewrite F, GI in Ec. discriminate.
    + intros u Hu. other u t; auto.
    + intros u Hu. rewrite LK in Hu. injection Hu as <-. rewrite upd_same. exact Logic.I.
    + intros u j Hu. other u t.
      * injection Hu as <-. intros k Hk. rewrite NP. destruct (Nat.eqb_spec i k) as [<-|]; [now rewrite GI|].
        apply FU. lia.
      * exfalso. apply (CR u); auto. now rewrite Hu.
    + intros u j a' Hu. other u t; [discriminate|]. exfalso. apply (CR u); auto. now rewrite Hu.
    + intros u Hu. other u t; [destruct Hu; discriminate|]. exfalso. apply (CR u); auto. destruct Hu as [->| ->]; exact Logic.I.
    + intros u j l Hu. other u t; [discriminate|]. exfalso.
      destruct (i_scan0 _ _ _ Hu) as [F _]. unfold all_fixed in F. rewrite F, GI in Ec. discriminate.
    + intros u l Hu. other u t; [discriminate|eauto].
    + intros u a'. other u t; [discriminate|eauto].
  - (* set flag *)
    assert (AF : all_fixed (v_cells s)) by eauto.
    assert (LK : v_lock s = Some t) by (apply i_lock0; now rewrite P).
    constructor; cbn; auto.
    + intros u Hu. other u t; auto.
    + intros u Hu. other u t; [exact Logic.I|auto].
    + intros u i Hu. other u t; [discriminate|eauto].
    + intros u i a Hu. other u t; [discriminate|eauto].
    + intros u i l Hu. other u t; [discriminate|eauto].
    + intros u l Hu. other u t; [discriminate|eauto].
    + intros u a. other u t; [discriminate|eauto].
  - (* release *)
    assert (AF : all_fixed (v_cells s)) by eauto.
    assert (LK : v_lock s = Some t) by (apply i_lock0; now rewrite P).
    constructor; cbn; auto.
    + intros u Hu. other u t; [contradiction|]. apply i_lock0 in Hu. congruence.
    + intros u Hu. discriminate.
    + intros u i Hu. other u t; [discriminate|eauto].
    + intros u i a Hu. other u t; [discriminate|eauto].
    + intros u i l Hu. other u t; [injection Hu as <- <-; auto|eauto].
    + intros u l Hu. other u t; [discriminate|eauto].
    + intros u a. other u t; [discriminate|eauto].
  - destruct (i_scan0 _ _ _ P) as [AF U]. unfold all_fixed in AF.
    apply inv_goto; auto; try (rewrite P; cbn; tauto); try discriminate; try (intros [H|H]; discriminate).
    intros j v [= <- <-]. split; [exact AF|]. rewrite map_app, U. cbn [map].
    symmetry. apply firstn_snoc. now rewrite <- AF.
  - exfalso. destruct (i_scan0 _ _ _ P) as [AF U]. unfold all_fixed in AF. rewrite AF in E.
    apply goal_inr in E. destruct E; discriminate.
  - destruct (i_scan0 _ _ _ P) as [AF U]. unfold all_fixed in AF.
    apply inv_goto; auto; try (rewrite P; cbn; tauto); try discriminate; try (intros [H|H]; discriminate).
    intros v [= <-]. rewrite AF in E. apply nth_error_None in E. rewrite firstn_all2 in U by exact E.
    rewrite goal_expected in U. revert U. generalize (expected refined cells0). clear.
    induction u as [|x u IH]; intros [|y l] H; try discriminate; [reflexivity|].
    injection H as -> H. f_equal. now apply IH.
  - apply inv_goto; auto; try (rewrite P; cbn; tauto); try discriminate; try (intros [H|H]; discriminate).
Qed.

Theorem vreach_inv s : vreach refined cells0 s -> inv s.
Proof. induction 1; [apply inv_init|]. eapply inv_step; eauto. Qed.

(** safety, single refinement, absence of deadlock *)
Theorem voxel_safe s : vreach refined cells0 s ->
  (forall t a, v_pc s t <> Broken a) /\
  (forall t u, v_pc s t = Done u -> u = expected refined cells0) /\
  NoDup (v_log s) /\ (forall i, In i (v_log s) -> exists a, nth_error cells0 i = Some (inl a)).
Proof. intros H. apply vreach_inv in H. destruct H. destruct i_log0. auto. Qed.

Theorem voxel_progress s t : vreach refined cells0 s -> exists u s', vstep u s s' /\
  (v_pc s t <> Acquire -> u = t).
Proof.
  intros H. apply vreach_inv in H. destruct H.
  assert (ST : forall t, v_pc s t <> Acquire -> exists s', vstep t s s').
  { intros x NA. destruct (v_pc s x) as [| | |i|i a| | |i u|a|u] eqn:P; try congruence.
    - eexists; now apply s_begin.
    - destruct (v_flag s) eqn:F; eexists; [now apply s_check_t|now apply s_check_f].
    - destruct (nth_error (v_cells s) i) as [[a|b]|] eqn:E; eexists;
        [eapply s_look_raw; eauto|eapply s_look_ok; eauto|eapply s_look_end; eauto].
    - eexists; eapply s_put; eauto.
    - eexists; eapply s_set; eauto.
    - eexists; eapply s_release; eauto.
    - destruct (nth_error (v_cells s) i) as [[a|b]|] eqn:E; eexists;
        [eapply s_scan_raw; eauto|eapply s_scan_ok; eauto|eapply s_scan_end; eauto].
    - exfalso. eapply i_ok0; eauto.
    - eexists; eapply s_next; eauto. }
  assert (DA : {v_pc s t = Acquire} + {v_pc s t <> Acquire}) by (destruct (v_pc s t); auto; right; discriminate).
  destruct DA as [P|P].
  - destruct (v_lock s) as [o|] eqn:L.
    + pose proof (i_lock3 o eq_refl) as C. destruct (ST o) as [s' Hs]; [intros Q; rewrite Q in C; exact C|].
      exists o, s'. split; [exact Hs|]. congruence.
    + eexists t, _. split; [now apply s_acquire|auto].
  - destruct (ST t P) as [s' Hs]. exists t, s'. auto.
Qed.
End Voxel.
