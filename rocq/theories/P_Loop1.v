(** Walks along partial injections, and fans of a triangulated surface. *)
From Coq Require Import Reals List Bool Arith Lia Relations Permutation.
From Verif Require Import Base M_Loop S_Loop.
Import ListNotations.

(** ** Corners *)
Lemma at3_tab3 {A} (g : c3 -> A) k : at3 (tab3 g) k = g k. Proof. now destruct k. Qed.
Lemma next_prev k : NEXT (PREV k) = k. Proof. now destruct k. Qed.
Lemma prev_next k : PREV (NEXT k) = k. Proof. now destruct k. Qed.
Lemma next_next k : NEXT (NEXT k) = PREV k. Proof. now destruct k. Qed.
Lemma prev_prev k : PREV (PREV k) = NEXT k. Proof. now destruct k. Qed.
Lemma c3_eqb_refl k : c3_eqb k k = true. Proof. now destruct k. Qed.
Lemma c3_eqb_eq j k : c3_eqb j k = true <-> j = k. Proof. destruct j, k; cbn; split; congruence. Qed.
Lemma c3_dec (j k : c3) : {j = k} + {j <> k}. Proof. decide equality. Qed.
Lemma next_neq k : NEXT k <> k. Proof. now destruct k. Qed.
Lemma prev_neq k : PREV k <> k. Proof. now destruct k. Qed.
Lemma next_prev_neq k : NEXT k <> PREV k. Proof. now destruct k. Qed.
Lemma next_inj j k : NEXT j = NEXT k -> j = k. Proof. destruct j, k; cbn; congruence. Qed.
Lemma prev_inj j k : PREV j = PREV k -> j = k. Proof. destruct j, k; cbn; congruence. Qed.
Lemma corner_cases j k : j = k \/ j = NEXT k \/ j = PREV k. Proof. destruct j, k; cbn; auto. Qed.
Lemma cnum_lt k : (cnum k < 3)%nat. Proof. destruct k; cbn; lia. Qed.
Lemma cnum_inj j k : cnum j = cnum k -> j = k. Proof. destruct j, k; cbn; congruence. Qed.

(** ** mapR *)
Lemma mapR_ok {A B} (f : A -> run B) (Q : A -> B -> Prop) l :
  (forall a, In a l -> exists b, f a = ret b /\ Q a b) -> exists bs, mapR f l = ret bs /\ Forall2 Q l bs.
Proof.
  induction l as [|a l IH]; intros H; cbn; [exists []; auto|].
  destruct (H a (or_introl eq_refl)) as (b & E1 & Qb). destruct IH as (bs & E2 & Qs); [intros; apply H; now right|].
  rewrite E1, E2. cbn. exists (b :: bs). auto.
Qed.
Lemma mapR_inv {A B} (f : A -> run B) l bs : mapR f l = ret bs -> Forall2 (fun a b => f a = ret b) l bs.
Proof.
  revert bs; induction l as [|a l IH]; intros bs H; cbn in H; [injection H as <-; constructor|].
  destruct (f a) as [[b|]|] eqn:Q; cbn in H; try discriminate. destruct (mapR f l) as [[x|]|]; cbn in H; try discriminate.
  injection H as <-. constructor; [exact Q|]. now apply IH.
Qed.
Lemma mapR_map {A B} (f : A -> run B) (g : A -> B) l : (forall a, In a l -> f a = ret (g a)) -> mapR f l = ret (map g l).
Proof.
  induction l as [|a l IH]; intros H; cbn; [reflexivity|]. rewrite (H a (or_introl eq_refl)), IH by (intros; apply H; now right). reflexivity.
Qed.
Lemma mapR_ext {A B} (f g : A -> run B) l : (forall a, In a l -> f a = g a) -> mapR f l = mapR g l.
Proof.
  induction l as [|a l IH]; intros H; cbn; [reflexivity|]. rewrite (H a (or_introl eq_refl)), IH by (intros; apply H; now right). reflexivity.
Qed.
Lemma Forall2_nth {A B} (Q : A -> B -> Prop) l1 l2 i a b : Forall2 Q l1 l2 -> (i < length l1)%nat -> Q (nth i l1 a) (nth i l2 b).
Proof. intros H. revert i. induction H; intros [|i] L; cbn in *; try lia; auto. apply IHForall2. lia. Qed.
Lemma Forall2_len {A B} (Q : A -> B -> Prop) l1 l2 : Forall2 Q l1 l2 -> length l1 = length l2.
Proof. induction 1; cbn; auto. Qed.

(** ** Walks *)
Section Walk.
Variable nx : nat -> option nat.
Fixpoint path (x : nat) (l : list nat) : Prop := match l with [] => True | g :: l' => nx x = Some g /\ path g l' end.
Lemma path_app x l1 l2 : path x (l1 ++ l2) <-> path x l1 /\ path (last l1 x) l2.
Proof.
  revert x; induction l1 as [|g l1 IH]; intros x; [cbn; tauto|]. cbn [app path]. rewrite IH.
  replace (last (g :: l1) x) with (last l1 g). tauto.
  destruct l1; [reflexivity|]. cbn [last]. clear. revert n. induction l1; intros; cbn; auto.
Qed.
Lemma last_cons (g : nat) l x : last (g :: l) x = last l g.
Proof. destruct l; [reflexivity|]. cbn [last]. revert n. induction l; intros; cbn; auto. Qed.
Lemma path_unique x l l' : path x l -> path x l' -> nx (last l x) = None -> nx (last l' x) = None -> l = l'.
Proof.
  revert x l'; induction l as [|g l IH]; intros x [|g' l'] P1 P2 N1 N2; cbn [path] in *; auto.
  - destruct P2 as [Q _]. cbn in N1. congruence.
  - destruct P1 as [Q _]. cbn in N2. congruence.
  - destruct P1 as [Q1 P1], P2 as [Q2 P2]. assert (g = g') by congruence. subst g'. rewrite last_cons in N1, N2.
    f_equal. now apply (IH g).
Qed.
(** what the modelled loop does along a path *)
Lemma walk_to_none (step : nat -> res (option nat)) stop x l fuel : path x l -> (forall g, In g l -> step g = Ok (nx g)) ->
  (forall s, stop = Some s -> ~ In s l) -> nx (last l x) = None -> (length l < fuel)%nat ->
  walk step stop fuel (nx x) = ret (l, false).
Proof.
  revert x fuel; induction l as [|g l IH]; intros x [|fuel] P ST SP N L; cbn [length] in L; try lia; cbn [walk].
  - cbn in N. now rewrite N.
  - destruct P as [Q P]. rewrite Q.
    assert (match stop with Some s => Nat.eqb g s | None => false end = false) as ->.
    { destruct stop as [s|]; [|reflexivity]. apply Nat.eqb_neq. intros ->. apply (SP s eq_refl). now left. }
    rewrite (ST g) by now left. cbn [lift rbind]. rewrite (IH g fuel P).
    + reflexivity. + intros; apply ST; now right. + intros s Q1 HIn. apply (SP s Q1). now right. + now rewrite last_cons in N. + lia.
Qed.
Lemma walk_to_stop (step : nat -> res (option nat)) s x l fuel : path x l -> (forall g, In g l -> step g = Ok (nx g)) ->
  ~ In s l -> nx (last l x) = Some s -> (length l < fuel)%nat -> walk step (Some s) fuel (nx x) = ret (l, true).
Proof.
  revert x fuel; induction l as [|g l IH]; intros x [|fuel] P ST SP N L; cbn [length] in L; try lia; cbn [walk].
  - cbn in N. now rewrite N, Nat.eqb_refl.
  - destruct P as [Q P]. rewrite Q.
    destruct (Nat.eqb_spec g s) as [->|NE]; [exfalso; apply SP; now left|].
    rewrite (ST g) by now left. cbn [lift rbind]. rewrite (IH g fuel P).
    + reflexivity. + intros; apply ST; now right. + intros HIn. apply SP. now right. + now rewrite last_cons in N. + lia.
Qed.
End Walk.

Section Inj.
Variables nx pv : nat -> option nat.
Variable D : list nat.
Hypothesis nxD : forall f g, In f D -> nx f = Some g -> In g D.
Hypothesis pvD : forall f g, In g D -> pv g = Some f -> In f D.
Hypothesis inv : forall f g, In f D -> In g D -> (nx f = Some g <-> pv g = Some f).

Lemma last_in (x : nat) l : In (last l x) (x :: l).
Proof. revert x; induction l as [|g l IH]; intros x; [now left|]. rewrite last_cons. right. apply IH. Qed.
Lemma path_in x l : In x D -> path nx x l -> incl l D.
Proof.
  revert x; induction l as [|g l IH]; intros x Hx P y HIn; [destruct HIn|]. destruct P as [Q P].
  assert (In g D) by (now apply (nxD x)). destruct HIn as [<-|HIn]; auto. now apply (IH g).
Qed.
Lemma last_app_cons (l1 : list nat) : forall x g l2, last (l1 ++ g :: l2) x = last l2 g.
Proof.
  induction l1 as [|a l1 IH]; intros x g l2; cbn [app]; rewrite last_cons; [reflexivity|]. apply IH.
Qed.
Lemma NoDup_disjoint (l1 l2 : list nat) x : NoDup (l1 ++ l2) -> In x l1 -> In x l2 -> False.
Proof.
  induction l1 as [|a l1 IH]; intros ND H1 H2; [destruct H1|]. cbn [app] in ND. inversion ND as [|? ? X Y]; subst.
  destruct H1 as [->|H1]; [apply X, in_or_app; now right|now apply IH].
Qed.
Lemma fresh s l g : In s D -> path nx s l -> NoDup (s :: l) -> nx (last l s) = Some g -> ~ In g l.
Proof.
  intros Hs P ND Q HIn. pose proof (path_in s l Hs P) as IL.
  assert (HLs : In (last l s) D) by (destruct (last_in s l) as [<-|]; auto).
  assert (Hg : In g D) by (now apply (nxD (last l s))).
  apply in_split in HIn as (l1 & l2 & ->). rewrite path_app in P. destruct P as [P1 [P2 P3]].
  assert (HL1 : In (last l1 s) D) by (destruct (last_in s l1) as [<-|]; [auto|apply IL, in_or_app; auto]).
  apply inv in P2, Q; auto. rewrite P2 in Q. injection Q as Q. rewrite last_app_cons in Q.
  change (s :: l1 ++ g :: l2) with ((s :: l1) ++ (g :: l2)) in ND.
  apply (NoDup_disjoint _ _ (last l1 s) ND); [apply last_in|]. rewrite Q. apply last_in.
Qed.
Lemma walk_extend n : forall s l, In s D -> path nx s l -> NoDup (s :: l) -> (length D - length (s :: l) <= n)%nat ->
  exists l', path nx s l' /\ NoDup (s :: l') /\ incl l' D /\ (nx (last l' s) = None \/ nx (last l' s) = Some s).
Proof.
  induction n as [|n IH]; intros s l Hs P ND LE; pose proof (path_in s l Hs P) as IL;
    (destruct (nx (last l s)) as [g|] eqn:Q; [|exists l; auto]);
    (destruct (Nat.eq_dec g s) as [->|NS]; [exists l; auto|]); pose proof (fresh s l g Hs P ND Q) as NG.
  all: assert (HLs : In (last l s) D) by (destruct (last_in s l) as [<-|]; auto).
  all: assert (Hg : In g D) by (now apply (nxD (last l s))).
  all: assert (P' : path nx s (l ++ [g])) by (apply path_app; cbn; auto).
  all: assert (ND' : NoDup (s :: l ++ [g])) by
    (change (s :: l ++ [g]) with ((s :: l) ++ [g]); apply (Permutation_NoDup (Permutation_cons_append (s :: l) g));
     constructor; [intros [X|X]; auto|exact ND]).
  - exfalso. assert (X : (length (s :: l ++ [g]) <= length D)%nat).
    { apply NoDup_incl_length; auto. intros y [<-|Hy]; auto. apply in_app_or in Hy as [Hy|[<-|[]]]; auto. }
    cbn in X, LE. rewrite app_length in X. cbn in X. lia.
  - apply (IH s (l ++ [g])); auto. cbn in LE |- *. rewrite app_length. cbn. lia.
Qed.
Lemma walk_ends s : In s D -> exists l, path nx s l /\ NoDup (s :: l) /\ incl l D /\ (nx (last l s) = None \/ nx (last l s) = Some s).
Proof.
  intros H. apply (walk_extend (length D) s []); auto; [exact I | constructor; [intros []|constructor] | cbn; lia].
Qed.
Lemma path_succ s l f : path nx s l -> In f (s :: l) -> f = last l s \/ exists g, In g l /\ nx f = Some g.
Proof.
  revert s; induction l as [|g l IH]; intros s P [<-|HIn]; try (now left).
  - right. exists g. split; [now left|apply P].
  - destruct P as [Q P]. destruct (IH g P HIn) as [->|(h & A & B)]; [left; now rewrite last_cons|]. right. exists h. split; [now right|exact B].
Qed.
Lemma path_pred s l g : path nx s l -> In g l -> exists f, In f (s :: l) /\ nx f = Some g.
Proof.
  revert s; induction l as [|h l IH]; intros s P HIn; [destruct HIn|]. destruct P as [Q P]. destruct HIn as [<-|HIn].
  - exists s. split; [now left|exact Q].
  - destruct (IH h P HIn) as (f & A & B). exists f. split; [now right|exact B].
Qed.
Lemma NoDup_app_r' (l1 l2 : list nat) : NoDup (l1 ++ l2) -> NoDup l2.
Proof. induction l1; cbn; auto. intros H; inversion H; auto. Qed.

(** a set closed under successors and predecessors contains everything connected to it *)
Lemma closed_all (L : list nat) s : In s L -> incl L D ->
  (forall f g, In f D -> In g D -> nx f = Some g -> (In f L <-> In g L)) ->
  forall t, clos_refl_sym_trans nat (fun f g => In f D /\ In g D /\ nx f = Some g) s t -> In t L.
Proof.
  intros Hs IL CL t H.
  assert (G : forall a b, clos_refl_sym_trans nat (fun f g => In f D /\ In g D /\ nx f = Some g) a b -> (In a L <-> In b L)).
  { clear - CL. induction 1; [now apply CL|tauto|tauto|tauto]. }
  now apply (G s t).
Qed.

Lemma cycle_all s l : In s D -> path nx s l -> nx (last l s) = Some s ->
  forall t, clos_refl_sym_trans nat (fun f g => In f D /\ In g D /\ nx f = Some g) s t ->
  In t (s :: l) /\ (exists g, nx t = Some g) /\ (exists g, In g (s :: l) /\ nx g = Some t).
Proof.
  intros Hs P Q. pose proof (path_in s l Hs P) as IL.
  assert (IL' : incl (s :: l) D) by (intros y [<-|Hy]; auto).
  assert (SU : forall f, In f (s :: l) -> exists g, In g (s :: l) /\ nx f = Some g).
  { intros f Hf. destruct (path_succ s l f P Hf) as [->|(g & A & B)]; [exists s; split; [now left|exact Q]|]. exists g. split; [now right|exact B]. }
  assert (PR : forall g, In g (s :: l) -> exists f, In f (s :: l) /\ nx f = Some g).
  { intros g [<-|Hg]; [exists (last l s); split; [apply last_in|exact Q]|]. now apply (path_pred s l g). }
  intros t HT. assert (X : In t (s :: l)).
  { apply (closed_all (s :: l) s); auto; [now left|]. intros f g Hf Hg Q1. split; intros HIn.
    - destruct (SU f HIn) as (h & A & B). congruence.
    - destruct (PR g HIn) as (h & A & B). apply inv in Q1, B; auto. congruence. }
  split; [exact X|]. split; [|now apply PR]. destruct (SU t X) as (g & _ & B). now exists g.
Qed.
Lemma rev_path s a : In s D -> path nx s a -> path pv (last a s) (tl (rev (s :: a))) /\ last (tl (rev (s :: a))) (last a s) = s.
Proof.
  revert s; induction a as [|g a IH]; intros s Hs P; [cbn; auto|]. destruct P as [Q P].
  assert (Hg : In g D) by (now apply (nxD s)). destruct (IH g Hg P) as [A B].
  assert (T : tl (rev (s :: g :: a)) = tl (rev (g :: a)) ++ [s]).
  { cbn [rev]. destruct (rev a); reflexivity. }
  rewrite T, last_cons. split; [|now rewrite last_app_cons].
  apply path_app. split; [exact A|]. rewrite B. cbn. split; [now apply inv|exact I].
Qed.
Lemma rev_head (s : nat) a : rev (s :: a) = last a s :: tl (rev (s :: a)).
Proof.
  revert s; induction a as [|g a IH]; intros s; [reflexivity|]. rewrite last_cons.
  change (rev (s :: g :: a)) with (rev (g :: a) ++ [s]). rewrite IH at 1. rewrite (IH g). reflexivity.
Qed.
End Inj.

Definition conn (nx : nat -> option nat) (D : list nat) := clos_refl_sym_trans nat (fun f g => In f D /\ In g D /\ nx f = Some g).
Lemma clos_mono (R1 R2 : nat -> nat -> Prop) : (forall a b, R1 a b -> clos_refl_sym_trans nat R2 a b) ->
  forall a b, clos_refl_sym_trans nat R1 a b -> clos_refl_sym_trans nat R2 a b.
Proof. intros H a b. induction 1; [now apply H|apply rst_refl|now apply rst_sym|eapply rst_trans; eauto]. Qed.

Section Fans.
Variables nx pv : nat -> option nat.
Variable D : list nat.
Hypothesis nxD : forall f g, In f D -> nx f = Some g -> In g D.
Hypothesis pvD : forall f g, In g D -> pv g = Some f -> In f D.
Hypothesis inv : forall f g, In f D -> In g D -> (nx f = Some g <-> pv g = Some f).
Variable s : nat.
Hypothesis Hs : In s D.
Hypothesis CO : forall f, In f D -> conn nx D s f.

(** a closed fan is one cycle through all of D *)
Lemma closed_fan : (forall f, In f D -> nx f <> None) ->
  exists l, path nx s l /\ NoDup (s :: l) /\ nx (last l s) = Some s /\ (forall f, In f (s :: l) <-> In f D) /\
    forall f, In f D -> exists g, In g (s :: l) /\ nx g = Some f.
Proof.
  intros NN. destruct (walk_ends nx pv D nxD inv s Hs) as (l & P & ND & IL & [Q|Q]).
  - exfalso. apply (NN (last l s)); auto. destruct (last_in s l) as [<-|]; auto.
  - exists l. split; [exact P|]. split; [exact ND|]. split; [exact Q|]. split; [intros f; split|].
    + intros [<-|]; auto.
    + intros Hf. exact (proj1 (cycle_all nx pv D nxD inv s l Hs P Q f (CO f Hf))).
    + intros f Hf. exact (proj2 (proj2 (cycle_all nx pv D nxD inv s l Hs P Q f (CO f Hf)))).
Qed.

(** an open fan: forward to the end e, then everything backward from e *)
Lemma open_fan : (exists f, In f D /\ nx f = None) ->
  exists a b, path nx s a /\ nx (last a s) = None /\ NoDup (s :: a) /\ incl a D /\
    path pv s b /\ pv (last b s) = None /\ incl b D /\ NoDup (s :: b) /\
    exists c, path pv (last a s) c /\ pv (last c (last a s)) = None /\ NoDup (last a s :: c) /\
      (forall f, In f (last a s :: c) <-> In f D) /\ length (last a s :: c) = (1 + length a + length b)%nat.
Proof.
  intros (f0 & H0 & N0).
  assert (inv' : forall f g, In f D -> In g D -> (pv f = Some g <-> nx g = Some f)) by (intros; symmetry; now apply inv).
  assert (pvD' : forall f g, In f D -> pv f = Some g -> In g D) by (intros f g A B; now apply (pvD g f)).
  assert (CO' : forall f, In f D -> conn pv D s f).
  { intros f Hf. eapply clos_mono; [|exact (CO f Hf)]. intros x y (A & B & C). apply rst_sym, rst_step. split; [exact B|]. split; [exact A|]. now apply inv. }
  destruct (walk_ends nx pv D nxD inv s Hs) as (a & PA & NDA & ILA & [QA|QA]);
    [|exfalso; destruct (cycle_all nx pv D nxD inv s a Hs PA QA f0 (CO f0 H0)) as (_ & (g & X) & _); congruence].
  destruct (walk_ends pv nx D pvD' inv' s Hs) as (b & PB & NDB & ILB & [QB|QB]);
    [|exfalso; destruct (cycle_all pv nx D pvD' inv' s b Hs PB QB f0 (CO' f0 H0)) as (_ & _ & (g & X & Y));
      apply inv' in Y; auto; [congruence|]; destruct X as [<-|X]; auto].
  exists a, b. repeat (split; [assumption|]).
  set (e := last a s). assert (He : In e D) by (unfold e; destruct (last_in s a) as [<-|]; auto).
  destruct (rev_path nx pv D nxD inv s a Hs PA) as [R1 R2]. fold e in R1, R2.
  set (c := tl (rev (s :: a)) ++ b).
  assert (PC : path pv e c) by (unfold c; apply path_app; split; [exact R1|]; now rewrite R2).
  assert (LC : last c e = last b s).
  { unfold c. destruct b as [|g b]; [rewrite app_nil_r; exact R2|]. rewrite last_app_cons, last_cons. reflexivity. }
  assert (QC : pv (last c e) = None) by now rewrite LC.
  assert (NDC : NoDup (e :: c)).
  { destruct (walk_ends pv nx D pvD' inv' e He) as (c' & PC' & NDC' & ILC' & [QC'|QC']).
    - now rewrite (path_unique pv e c c' PC PC' QC QC').
    - exfalso. apply inv' in QC'; auto; [unfold e in QC'; congruence|]. destruct (last_in e c') as [<-|]; auto. }
  assert (EC : e :: c = rev (s :: a) ++ b) by (unfold c, e; rewrite app_comm_cons; f_equal; symmetry; apply rev_head).
  exists c. split; [exact PC|]. split; [exact QC|]. split; [exact NDC|]. split.
  - intros f. split.
    + intros [<-|Hf]; auto. revert Hf. apply (path_in pv D pvD' e c He PC).
    + intros Hf. apply (closed_all pv D (e :: c) s).
      * rewrite EC. apply in_or_app. left. apply -> in_rev. now left.
      * intros x [<-|Hx]; auto. revert Hx. apply (path_in pv D pvD' e c He PC).
      * intros x y Hx Hy Q. split; intros HIn.
        -- destruct (path_succ pv e c x PC HIn) as [->|(g & A & B)]; [congruence|]. right. congruence.
        -- destruct HIn as [<-|HIn]; [apply inv' in Q; auto; unfold e in Q; congruence|].
           destruct (path_pred pv e c y PC HIn) as (g & A & B).
           assert (Hg : In g D) by (destruct A as [<-|A]; auto; revert A; apply (path_in pv D pvD' e c He PC)).
           apply inv' in Q, B; auto. congruence.
      * now apply CO'.
  - rewrite EC, app_length, rev_length. cbn. lia.
Qed.
End Fans.
