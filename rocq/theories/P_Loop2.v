(** Fans of the triangles at a vertex: what valence and one_ring return. *)
From Coq Require Import Reals List Bool Arith Lia Relations Permutation.
From Verif Require Import Base M_Loop S_Loop P_Loop1.
Import ListNotations.

Lemma tri_getF m F k : tri_at (tris m) F k = at3 (fv (getF m F)) k.
Proof.
  unfold tri_at, tris, getF. change (mkV 0 0 0)%nat with (fv (mkF (mkV 0 0 0)%nat (mkV None None None))) at 1. now rewrite map_nth.
Qed.
Lemma tris_len m : length (tris m) = length (mF m). Proof. apply map_length. Qed.

(** ** Surfaces *)
Section Surf.
Variables (ts : list (V3 nat)) (nv : nat).
Hypothesis SF : surface ts nv.
Lemma sf_range F k : (F < length ts)%nat -> (tri_at ts F k < nv)%nat. Proof. apply SF. Qed.
Lemma sf_inj F j k : (F < length ts)%nat -> tri_at ts F j = tri_at ts F k -> j = k. Proof. apply SF. Qed.
Lemma sf_orient a b F G : dedge ts a b F -> dedge ts a b G -> F = G. Proof. apply SF. Qed.
Lemma sf_simple F G : (F < length ts)%nat -> (G < length ts)%nat -> (forall k, touches ts G (tri_at ts F k)) -> F = G. Proof. apply SF. Qed.
Lemma sf_used v : (v < nv)%nat -> exists F, touches ts F v. Proof. apply SF. Qed.
Lemma sf_fan v F G : touches ts F v -> touches ts G v -> clos_refl_sym_trans nat (around ts v) F G. Proof. apply SF. Qed.
End Surf.

Lemma dedge_mk ts F k : (F < length ts)%nat -> dedge ts (tri_at ts F k) (tri_at ts F (NEXT k)) F.
Proof. intros H. split; [exact H|]. now exists k. Qed.
Lemma dedge_mk' ts F k : (F < length ts)%nat -> dedge ts (tri_at ts F (PREV k)) (tri_at ts F k) F.
Proof. intros H. split; [exact H|]. exists (PREV k). now rewrite next_prev. Qed.
Lemma touches_mk ts F k : (F < length ts)%nat -> touches ts F (tri_at ts F k).
Proof. intros H. now exists k. Qed.
Lemma touches_of_dedge_l ts a b F : dedge ts a b F -> touches ts F a.
Proof. intros (H & k & A & B). exists k. now split. Qed.
Lemma touches_of_dedge_r ts a b F : dedge ts a b F -> touches ts F b.
Proof. intros (H & k & A & B). exists (NEXT k). now split. Qed.

(** the triangles at v *)
Definition Dv (ts : list (V3 nat)) (v : nat) : list nat :=
  filter (fun F => existsb (fun k => Nat.eqb (tri_at ts F k) v) [k0; k1; k2]) (seq 0 (length ts)).
Lemma Dv_in ts v F : In F (Dv ts v) <-> touches ts F v.
Proof.
  unfold Dv. rewrite filter_In, in_seq, existsb_exists. split.
  - intros [H (k & _ & Q)]. exists k. split; [lia|]. now apply Nat.eqb_eq.
  - intros (k & H & Q). split; [lia|]. exists k. split; [destruct k; cbn; auto|]. now apply Nat.eqb_eq.
Qed.
Lemma Dv_nodup ts v : NoDup (Dv ts v). Proof. apply NoDup_filter, seq_NoDup. Qed.
Lemma Dv_len ts v : (length (Dv ts v) <= length ts)%nat.
Proof.
  transitivity (length (seq 0 (length ts))); [|now rewrite seq_length]. apply NoDup_incl_length; [apply Dv_nodup|]. intros x Hx. now apply filter_In in Hx.
Qed.

Lemma degree_unique ts v n n' : degree ts v n -> degree ts v n' -> n = n'.
Proof.
  intros (ws & A & <- & C) (ws' & A' & <- & C'). apply Permutation_length, NoDup_Permutation; auto.
  intros x. rewrite C, C'. tauto.
Qed.

Section Fan2.
Variable m : mesh.
Let ts := tris m.
Let nv := length (mV m).
Hypothesis SF : surface ts nv.
Hypothesis NB : forall F k G, (F < length ts)%nat ->
  (at3 (ff (getF m F)) k = Some G <-> dedge ts (tri_at ts F (NEXT k)) (tri_at ts F k) G).

Lemma vnum_ok F k : (F < length ts)%nat -> vnum (getF m F) (tri_at ts F k) = Ok k.
Proof.
  intros H. unfold vnum. rewrite <- !tri_getF. fold ts.
  assert (X : forall j, j <> k -> Nat.eqb (tri_at ts F j) (tri_at ts F k) = false).
  { intros j Hj. apply Nat.eqb_neq. intros Q. apply sf_inj with (nv := nv) in Q; auto. }
  destruct k; rewrite ?Nat.eqb_refl, ?X by discriminate; reflexivity.
Qed.
Lemma nb_lt F k G : (F < length ts)%nat -> at3 (ff (getF m F)) k = Some G -> (G < length ts)%nat.
Proof. intros H Q. apply NB in Q; auto. apply Q. Qed.

Definition nxo v F := match next_face m v F with Ok x => x | Err _ => None end.
Definition pvo v F := match prev_face m v F with Ok x => x | Err _ => None end.
Lemma nx_eq F k : (F < length ts)%nat -> next_face m (tri_at ts F k) F = Ok (at3 (ff (getF m F)) k).
Proof. intros H. unfold next_face. now rewrite vnum_ok. Qed.
Lemma pv_eq F k : (F < length ts)%nat -> prev_face m (tri_at ts F k) F = Ok (at3 (ff (getF m F)) (PREV k)).
Proof. intros H. unfold prev_face. now rewrite vnum_ok. Qed.
Lemma nv_eq F k : (F < length ts)%nat -> next_vert m (tri_at ts F k) F = Ok (tri_at ts F (NEXT k)).
Proof. intros H. unfold next_vert. rewrite vnum_ok by exact H. cbn [bind]. now rewrite <- tri_getF. Qed.
Lemma pvv_eq F k : (F < length ts)%nat -> prev_vert m (tri_at ts F k) F = Ok (tri_at ts F (PREV k)).
Proof. intros H. unfold prev_vert. rewrite vnum_ok by exact H. cbn [bind]. now rewrite <- tri_getF. Qed.
Lemma nx_ok v F : touches ts F v -> next_face m v F = Ok (nxo v F).
Proof. intros (k & H & <-). unfold nxo. now rewrite nx_eq. Qed.
Lemma pv_ok v F : touches ts F v -> prev_face m v F = Ok (pvo v F).
Proof. intros (k & H & <-). unfold pvo. now rewrite pv_eq. Qed.
Lemma nx_around v F G : touches ts F v -> (nxo v F = Some G <-> around ts v F G).
Proof.
  intros (k & H & <-). unfold nxo. rewrite nx_eq by exact H. rewrite NB by exact H. split.
  - intros X. exists (tri_at ts F (NEXT k)). split; [now apply dedge_mk|exact X].
  - intros (w & (_ & j & A & B) & X). apply sf_inj with (nv := nv) in A; auto. subst j. now rewrite B.
Qed.
Lemma pv_around v F G : touches ts G v -> (pvo v G = Some F <-> around ts v F G).
Proof.
  intros (k & H & <-). unfold pvo. rewrite pv_eq by exact H. rewrite NB by exact H. rewrite next_prev. split.
  - intros X. exists (tri_at ts G (PREV k)). split; [exact X|now apply dedge_mk'].
  - intros (w & X & (_ & j & A & B)). apply sf_inj with (nv := nv) in B; auto. subst k. rewrite prev_next. now rewrite A.
Qed.
Lemma around_l v F G : around ts v F G -> touches ts F v. Proof. intros (w & A & _). exact (touches_of_dedge_l _ _ _ _ A). Qed.
Lemma around_r v F G : around ts v F G -> touches ts G v. Proof. intros (w & _ & A). exact (touches_of_dedge_r _ _ _ _ A). Qed.
Let D v := Dv ts v.
Lemma nxD v f g : In f (D v) -> nxo v f = Some g -> In g (D v).
Proof. intros H Q. apply Dv_in in H. apply nx_around in Q; auto. apply Dv_in. eapply around_r; eauto. Qed.
Lemma pvD v f g : In g (D v) -> pvo v g = Some f -> In f (D v).
Proof. intros H Q. apply Dv_in in H. apply pv_around in Q; auto. apply Dv_in. eapply around_l; eauto. Qed.
Lemma nx_inv v f g : In f (D v) -> In g (D v) -> (nxo v f = Some g <-> pvo v g = Some f).
Proof. intros H H'. apply Dv_in in H, H'. rewrite nx_around, pv_around by assumption. tauto. Qed.
Lemma fan_conn v s f : In s (D v) -> In f (D v) -> conn (nxo v) (D v) s f.
Proof.
  intros H H'. apply Dv_in in H, H'. pose proof (sf_fan ts nv SF v s f H H') as C. eapply clos_mono; [|exact C].
  intros x y A. apply rst_step. split; [apply Dv_in; eapply around_l; eauto|]. split; [apply Dv_in; eapply around_r; eauto|].
  apply nx_around; auto. eapply around_l; eauto.
Qed.
(** borders *)
Lemma none_border F k : (F < length ts)%nat -> at3 (ff (getF m F)) k = None <-> border ts (tri_at ts F k) (tri_at ts F (NEXT k)).
Proof.
  intros H. split.
  - intros Q. split; [exists F; now apply dedge_mk|]. intros (G & X). apply (NB F k G H) in X. congruence.
  - intros [_ X]. destruct (at3 (ff (getF m F)) k) as [G|] eqn:Q; [|reflexivity]. exfalso. apply X. exists G. now apply NB.
Qed.
Lemma nx_none v F : touches ts F v -> nxo v F = None -> exists w, dedge ts v w F /\ border ts v w.
Proof.
  intros (k & H & <-) Q. unfold nxo in Q. rewrite nx_eq in Q by exact H. exists (tri_at ts F (NEXT k)).
  split; [now apply dedge_mk|now apply none_border].
Qed.
Lemma pv_none v F : touches ts F v -> pvo v F = None -> exists w, dedge ts w v F /\ border ts w v.
Proof.
  intros (k & H & <-) Q. unfold pvo in Q. rewrite pv_eq in Q by exact H. exists (tri_at ts F (PREV k)).
  split; [now apply dedge_mk'|]. apply none_border in Q; auto. now rewrite next_prev in Q.
Qed.
Lemma border_nx v : on_border ts v <-> exists F, In F (D v) /\ nxo v F = None.
Proof.
  split.
  - intros (w & (F & (H & k & A & B)) & X). exists F. assert (T : touches ts F v) by (exists k; now split).
    split; [now apply Dv_in|]. destruct (nxo v F) as [G|] eqn:Q; [|reflexivity]. exfalso. apply X.
    apply nx_around in Q; auto. destruct Q as (w' & (_ & j & A' & B') & Y). rewrite <- A in A'. apply sf_inj with (nv := nv) in A'; auto.
    subst j. exists G. congruence.
  - intros (F & H & Q). apply Dv_in in H. destruct (nx_none v F H Q) as (w & _ & X). now exists w.
Qed.

Hypothesis ST : forall v, (v < nv)%nat -> touches ts (vstart (getV m v)) v.

Definition nvo v F := match next_vert m v F with Ok x => x | Err _ => 0%nat end.
Definition pvv v F := match prev_vert m v F with Ok x => x | Err _ => 0%nat end.
Lemma nvo_ok v F : touches ts F v -> next_vert m v F = Ok (nvo v F) /\ dedge ts v (nvo v F) F.
Proof. intros (k & H & <-). unfold nvo. rewrite nv_eq by exact H. split; [reflexivity|now apply dedge_mk]. Qed.
Lemma pvv_ok v F : touches ts F v -> prev_vert m v F = Ok (pvv v F) /\ dedge ts (pvv v F) v F.
Proof. intros (k & H & <-). unfold pvv. rewrite pvv_eq by exact H. split; [reflexivity|now apply dedge_mk']. Qed.
Lemma dedge_det_r v a b F : dedge ts v a F -> dedge ts v b F -> a = b.
Proof. intros (H & j & A & B) (_ & k & A' & B'). rewrite <- A in A'. apply sf_inj with (nv := nv) in A'; auto. congruence. Qed.
Lemma dedge_det_l v a b F : dedge ts a v F -> dedge ts b v F -> a = b.
Proof. intros (H & j & A & B) (_ & k & A' & B'). rewrite <- B in B'. apply sf_inj with (nv := nv) in B'; auto. apply next_inj in B'. congruence. Qed.

Lemma NoDup_map_inj {A B} (f : A -> B) l : NoDup l -> (forall x y, In x l -> In y l -> f x = f y -> x = y) -> NoDup (map f l).
Proof.
  induction 1 as [|a l N ND IH]; intros H; cbn; [constructor|]. constructor.
  - intros HIn. apply in_map_iff in HIn as (y & Q & Hy). apply N. rewrite (H a y); auto; [now left|now right].
  - apply IH. intros; apply H; auto; now right.
Qed.

(** interior vertices: the fan is all triangles at v, and the ring lists the neighbours once each *)
Lemma interior_fan fuel v : (v < nv)%nat -> (length (Dv ts v) <= fuel)%nat -> ~ on_border ts v ->
  exists l, fan m fuel v = ret l /\ NoDup l /\ (forall F, In F l <-> touches ts F v) /\ length l = length (Dv ts v) /\
    mapR (fun F => lift (next_vert m v F)) l = ret (map (nvo v) l) /\ NoDup (map (nvo v) l) /\
    (forall w, In w (map (nvo v) l) <-> linked ts v w).
Proof.
  intros Hv FU NBD. set (s := vstart (getV m v)). assert (Hs : In s (D v)) by (apply Dv_in; now apply ST).
  assert (NN : forall f, In f (D v) -> nxo v f <> None) by (intros f Hf Q; apply NBD, border_nx; now exists f).
  destruct (closed_fan (nxo v) (pvo v) (D v) (nxD v) (nx_inv v) s Hs (fun f => fan_conn v s f Hs) NN)
    as (l & P & ND & Q & ALL & PRED).
  assert (LEN : length (s :: l) = length (D v)).
  { apply Permutation_length, NoDup_Permutation; auto. apply Dv_nodup. }
  assert (T : forall F, In F (s :: l) <-> touches ts F v) by (intros F; rewrite ALL; apply Dv_in).
  exists (s :: l). split.
  { unfold fan. fold s. rewrite nx_ok by (apply T; now left). cbn [lift rbind].
    rewrite (walk_to_stop (nxo v) (next_face m v) s s l fuel P).
    - reflexivity.
    - intros g Hg. apply nx_ok, T. now right.
    - inversion ND; auto.
    - exact Q.
    - cbn in LEN. unfold D in LEN. lia. }
  split; [exact ND|]. split; [exact T|]. split; [exact LEN|]. split.
  { apply mapR_map. intros F HF. unfold lift. rewrite (proj1 (nvo_ok v F (proj1 (T F) HF))). reflexivity. }
  split.
  { apply NoDup_map_inj; [exact ND|]. intros x y Hx Hy Z. apply T in Hx, Hy.
    pose proof (proj2 (nvo_ok v x Hx)) as X. pose proof (proj2 (nvo_ok v y Hy)) as Y. rewrite Z in X.
    exact (sf_orient ts nv SF _ _ _ _ X Y). }
  intros w. rewrite in_map_iff. split.
  - intros (F & <- & HF). exists F. left. apply nvo_ok. now apply T.
  - intros (F & [X|X]).
    + assert (TF : touches ts F v) by exact (touches_of_dedge_l _ _ _ _ X). exists F. split; [|now apply T].
      exact (dedge_det_r v _ _ F (proj2 (nvo_ok v F TF)) X).
    + assert (TF : touches ts F v) by exact (touches_of_dedge_r _ _ _ _ X).
      destruct (PRED F) as (G & HG & QG); [now apply Dv_in|]. exists G. split; [|exact HG]. apply T in HG.
      apply nx_around in QG; auto. destruct QG as (w' & A & B). rewrite (dedge_det_l v _ _ F X B).
      exact (dedge_det_r v _ _ G (proj2 (nvo_ok v G HG)) A).
Qed.

(** border vertices *)
Lemma border_fan fuel v : (v < nv)%nat -> (length (Dv ts v) <= fuel)%nat -> on_border ts v -> vbnd (getV m v) = true ->
  exists ring a b, valence m fuel v = ret (length (Dv ts v) + 1)%nat /\ one_ring m fuel v = ret ring /\
    length ring = (length (Dv ts v) + 1)%nat /\ NoDup ring /\ (forall w, In w ring <-> linked ts v w) /\
    hd_error ring = Some a /\ last ring 0%nat = b /\ border ts v a /\ border ts b v.
Proof.
  intros Hv FU BD FL. set (s := vstart (getV m v)). assert (Hs : In s (D v)) by (apply Dv_in; now apply ST).
  apply border_nx in BD.
  destruct (open_fan (nxo v) (pvo v) (D v) (nxD v) (pvD v) (nx_inv v) s Hs (fun f => fan_conn v s f Hs) BD)
    as (a & b & PA & QA & NDA & IA & PB & QB & IB & NDB & c & PC & QC & NDC & ALL & LEN).
  set (e := last a s) in *.
  assert (TD : forall F, In F (D v) <-> touches ts F v) by (intros F; apply Dv_in).
  assert (T : forall F, In F (e :: c) <-> touches ts F v) by (intros F; rewrite ALL; apply Dv_in).
  assert (Ts : touches ts s v) by now apply TD.
  assert (Te : touches ts e v) by (apply T; now left).
  assert (LD : length (e :: c) = length (D v)) by (apply Permutation_length, NoDup_Permutation; auto; apply Dv_nodup).
  assert (LA : (length a < fuel)%nat) by (unfold D in *; cbn in *; lia).
  assert (LB : (length b < fuel)%nat) by (unfold D in *; cbn in *; lia).
  assert (LC : (length c < fuel)%nat) by (unfold D in *; cbn in *; lia).
  assert (W1 : walk (next_face m v) None fuel (nxo v s) = ret (a, false)).
  { apply walk_to_none; auto; [|discriminate]. intros g Hg. apply nx_ok, TD. now apply IA. }
  assert (W2 : walk (prev_face m v) None fuel (pvo v s) = ret (b, false)).
  { apply walk_to_none; auto; [|discriminate]. intros g Hg. apply pv_ok, TD. now apply IB. }
  assert (W3 : walk (prev_face m v) None fuel (pvo v e) = ret (c, false)).
  { apply walk_to_none; auto; [|discriminate]. intros g Hg. apply pv_ok, T. now right. }
  exists (nvo v e :: map (pvv v) (e :: c)), (nvo v e), (pvv v (last c e)).
  split.
  { unfold valence. rewrite FL. fold s. rewrite nx_ok by exact Ts. cbn [lift rbind]. rewrite W1. cbn [ret rbind].
    rewrite pv_ok by exact Ts. cbn [lift rbind]. rewrite W2. cbn [ret rbind]. unfold ret. do 2 f_equal. unfold D in LD. lia. }
  split.
  { unfold one_ring. rewrite FL. fold s. rewrite nx_ok by exact Ts. cbn [lift rbind]. rewrite W1. cbn [ret rbind]. fold e.
    rewrite (proj1 (nvo_ok v e Te)), (proj1 (pvv_ok v e Te)), pv_ok by exact Te. cbn [lift rbind]. rewrite W3. cbn [ret rbind].
    rewrite (mapR_map _ (pvv v)); [reflexivity|]. intros F HF. unfold lift. rewrite (proj1 (pvv_ok v F (proj1 (T F) (or_intror HF)))). reflexivity. }
  split; [cbn [length]; rewrite map_length; unfold D in LD; lia|].
  assert (QE : nxo v e = None) by exact QA.
  destruct (nx_none v e Te QE) as (w0 & X0 & B0). pose proof (dedge_det_r v _ _ e (proj2 (nvo_ok v e Te)) X0) as W0. subst w0.
  split.
  { constructor.
    - intros HIn. apply in_map_iff in HIn as (F & Z & HF). apply T in HF. apply (proj2 B0). exists F. rewrite <- Z. apply pvv_ok. exact HF.
    - apply NoDup_map_inj; [exact NDC|]. intros x y Hx Hy Z. apply T in Hx, Hy.
      pose proof (proj2 (pvv_ok v x Hx)) as X. pose proof (proj2 (pvv_ok v y Hy)) as Y. rewrite Z in X.
      exact (sf_orient ts nv SF _ _ _ _ X Y). }
  split.
  { intros w. split.
    - intros [<-|HIn]; [exists e; left; exact X0|]. apply in_map_iff in HIn as (F & <- & HF). apply T in HF. exists F. right. now apply pvv_ok.
    - intros (F & [X|X]).
      + assert (TF : touches ts F v) by exact (touches_of_dedge_l _ _ _ _ X).
        destruct (nxo v F) as [G|] eqn:Q.
        * right. apply in_map_iff. apply nx_around in Q; auto. pose proof (around_r v F G Q) as TG. destruct Q as (w' & A & B).
          exists G. split; [|now apply T]. rewrite (dedge_det_r v _ _ F X A). exact (dedge_det_l v _ _ G (proj2 (pvv_ok v G TG)) B).
        * left. assert (EF : F = e).
          { apply T in TF. destruct TF as [<-|TF]; [reflexivity|]. destruct (path_pred (pvo v) e c F PC TF) as (G & HG & QG).
            assert (TG : touches ts G v) by now apply T. apply nx_inv in QG; [congruence|now apply TD, T; right|now apply TD]. }
          subst F. exact (dedge_det_r v _ _ e (proj2 (nvo_ok v e Te)) X).
      + right. assert (TF : touches ts F v) by exact (touches_of_dedge_r _ _ _ _ X). apply in_map_iff. exists F. split; [|now apply T].
        exact (dedge_det_l v _ _ F (proj2 (pvv_ok v F TF)) X). }
  split; [reflexivity|]. split.
  { rewrite last_cons. clear. cbn [map]. rewrite last_cons. generalize e. clear. induction c as [|x c IH]; intros e; [reflexivity|]. cbn [map]. rewrite !last_cons. apply IH. }
  split; [exact B0|].
  assert (TL : touches ts (last c e) v) by (apply T, last_in).
  destruct (pv_none v (last c e) TL QC) as (w & X & B). now rewrite (dedge_det_l v _ _ _ (proj2 (pvv_ok v _ TL)) X).
Qed.
End Fan2.
