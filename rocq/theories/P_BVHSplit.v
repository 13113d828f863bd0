(** How the primitives of a BVH node are split between its children *)
From Coq Require Import Reals Lra Lia List Bool ZArith Arith Permutation.
From Verif Require Import Base M_Geometry S_Geometry P_Geometry M_BVH S_BVH P_BVH P_BVHTrav P_BVHWit.
Import ListNotations.
Open Scope R_scope.
Notation cen p ax := (vnth (bp_centroid p) ax).

(** ** insertion sort sorts *)
Definition srt (d : list bprim) (dim a b : nat) : Prop := forall i j, (a <= i <= j)%nat -> (j < b)%nat -> cen (aget d i) dim <= cen (aget d j) dim.
Lemma ins_sorted start dim dk K : forall k d, (start <= k <= K)%nat -> (K < length d)%nat ->
  (forall i j, (start <= i <= j)%nat -> (j <= K)%nat -> i <> k -> j <> k -> cen (aget d i) dim <= cen (aget d j) dim) ->
  (forall j, (k < j <= K)%nat -> cen dk dim <= cen (aget d j) dim) ->
  srt (ins_loop k start dim dk d) dim start (S K).
Proof.
  assert (FIN : forall k d, (start <= k <= K)%nat -> (K < length d)%nat ->
    (forall i j, (start <= i <= j)%nat -> (j <= K)%nat -> i <> k -> j <> k -> cen (aget d i) dim <= cen (aget d j) dim) ->
    (forall j, (k < j <= K)%nat -> cen dk dim <= cen (aget d j) dim) ->
    (forall i, (start <= i < k)%nat -> cen (aget d i) dim <= cen dk dim) -> srt (aset d k dk) dim start (S K)).
  { intros k d Hk L HS HR HL i j Hi Hj. rewrite !aget_aset by lia.
    destruct (Nat.eqb_spec i k) as [->|Ni], (Nat.eqb_spec j k) as [->|Nj]; try lra.
    - apply HR; lia.
    - apply HL; lia.
    - apply HS; lia. }
  induction k as [|k IH]; intros d Hk L HS HR; cbn [ins_loop].
  - apply FIN; auto. lia.
  - destruct (Nat.ltb_spec start (S k)) as [Hs|Hs]; cbn [andb].
    2:{ apply FIN; auto. intros; lia. }
    destruct (Rltb (cen dk dim) (cen (aget d k) dim)) eqn:C; Rb.
    + apply IH; [lia|rewrite aset_length; lia| |].
      * intros i j Hi Hj Ni Nj. rewrite !aget_aset by lia.
        destruct (Nat.eqb_spec i (S k)) as [->|Ni'], (Nat.eqb_spec j (S k)) as [->|Nj']; try lra; apply HS; lia.
      * intros j Hj. rewrite aget_aset by lia. destruct (Nat.eqb_spec j (S k)) as [->|Nj]; [lra|apply HR; lia].
    + apply FIN; auto. intros i Hi. apply Rle_trans with (cen (aget d k) dim); [apply HS; lia|lra].
Qed.
Lemma ins_loop_length start dim dk : forall k d, length (ins_loop k start dim dk d) = length d.
Proof. induction k as [|k IH]; intros d; cbn [ins_loop]; [apply aset_length|]. destruct (_ && _); [rewrite IH|]; apply aset_length. Qed.
Lemma insertion_sorted d s e dim : (s <= e)%nat -> (e <= length d)%nat -> srt (insertion_sort d s e dim) dim s e.
Proof.
  intros Hse He. unfold insertion_sort.
  assert (G : forall n a d0, length d0 = length d -> (s <= a)%nat -> (a + n = e)%nat -> srt d0 dim s a ->
     srt (fold_left (fun d i => ins_loop i s dim (aget d i) d) (seq a n) d0) dim s (a + n)).
  { induction n as [|n IH]; intros a d0 L A B SR; cbn [seq fold_left]; [now rewrite Nat.add_0_r|].
    replace (a + S n)%nat with (S a + n)%nat by lia. apply IH; [rewrite ins_loop_length; exact L|lia|lia|].
    apply ins_sorted; [lia|lia| |].
    - intros i j Hi Hj Ni Nj. apply SR; lia.
    - intros j Hj. lia. }
  replace e with (s + (e - s))%nat at 2 by lia. apply G; auto; [lia|]. intros i j Hi Hj. lia.
Qed.

(** ** the split condition *)
Definition split_ok (m : split_method) (ax : nat) (l0 l1 : list bprim) : Prop :=
  (exists x rest, Permutation l1 (x :: rest) /\ forall p q, In p l0 -> In q rest -> cen p ax <= cen q ax) /\
  (m = SAH -> (length l0 + length l1 <= 4)%nat -> forall p q, In p l0 -> In q l1 -> cen p ax <= cen q ax).
Lemma split_ok_perm m ax l0 l1 l0' l1' : Permutation l0 l0' -> Permutation l1 l1' -> split_ok m ax l0 l1 -> split_ok m ax l0' l1'.
Proof.
  intros P0 P1 ((x & rest & P & H) & HS). split.
  - exists x, rest. split; [eapply Permutation_trans; [apply Permutation_sym; exact P1|exact P]|]. intros p q Hp Hq. apply H; auto. eapply Permutation_in; [apply Permutation_sym; exact P0|auto].
  - intros M L p q Hp Hq. apply HS; auto.
    + now rewrite (Permutation_length P0), (Permutation_length P1).
    + eapply Permutation_in; [apply Permutation_sym; exact P0|auto].
    + eapply Permutation_in; [apply Permutation_sym; exact P1|auto].
Qed.
Lemma split_ok_all m ax l0 l1 : l1 <> [] -> (forall p q, In p l0 -> In q l1 -> cen p ax <= cen q ax) -> split_ok m ax l0 l1.
Proof. intros N H. split; auto. destruct l1 as [|x rest]; [contradiction|]. exists x, rest. split; auto. intros; apply H; auto. now right. Qed.

Inductive sep (m : split_method) : tree -> list bprim -> nat -> Prop :=
| s_leaf b l off : sep m (Leaf b off (length l)) l off
| s_node b ax c0 c1 l0 l1 off : sep m c0 l0 off -> sep m c1 l1 (off + length l0) -> split_ok m ax l0 l1 -> sep m (Node b ax c0 c1) (l0 ++ l1) off.

(** ** buckets are ordered *)
Lemma Ztrunc_mono a b : 0 <= a -> a <= b -> (Zfloor a <= Zfloor b)%Z.
Proof. intros A AB. destruct (Zfloor_spec a), (Zfloor_spec b). apply Zlt_succ_le, lt_IZR. rewrite succ_IZR. lra. Qed.
Lemma bucket_mono lo hi dim p q bp bq : vnth lo dim < vnth hi dim -> vnth lo dim <= cen q dim -> cen q dim <= cen p dim ->
  bucket_of (fbox lo hi) dim p = Ok bp -> bucket_of (fbox lo hi) dim q = Ok bq -> (bq <= bp)%nat.
Proof.
  intros Hlt H0 H1. unfold bucket_of, fbox; cbn [bmin bmax]. rewrite !vnth_vmap_Fin. unfold esub; cbn [eadd eopp ediv]. unfold edivz.
  set (c := vnth (bp_centroid p) dim) in *. set (c' := vnth (bp_centroid q) dim) in *. set (l := vnth lo dim) in *. set (h := vnth hi dim) in *.
  destruct (Reqb (h + - l) 0) eqn:C; Rb; [lra|]. cbn [emul eint bind].
  assert (P : forall x, l <= x -> 0 <= (x + - l) / (h + - l)) by (intros x Hx; apply Rmult_le_pos; [lra|left; apply Rinv_0_lt_compat; lra]).
  assert (Q : (c' + - l) / (h + - l) <= (c + - l) / (h + - l)) by (apply Rmult_le_compat_r; [left; apply Rinv_0_lt_compat; lra|lra]).
  pose proof (P c ltac:(lra)) as Pc. pose proof (P c' ltac:(lra)) as Pc'. unfold n_buckets. rewrite !Ztrunc_nonneg by lra.
  pose proof (Ztrunc_mono (12 * ((c' + - l) / (h + - l))) (12 * ((c + - l) / (h + - l))) ltac:(lra) ltac:(lra)) as M.
  set (z := Zfloor (12 * ((c + - l) / (h + - l)))) in *. set (z' := Zfloor (12 * ((c' + - l) / (h + - l)))) in *.
  destruct (Z.eqb_spec z 12) as [E|E], (Z.eqb_spec z' 12) as [E'|E'];
    destruct (Z.leb_spec 0 (if true then 0 else 0)); cbn [andb];
    repeat match goal with |- context [(?a <=? ?b)%Z && (?c <? ?d)%Z] => destruct ((a <=? b)%Z && (c <? d)%Z) eqn:?; [apply andb_true_iff in Heqb as [? ?]; try rewrite Z.leb_le in *; try rewrite Z.ltb_lt in *|try discriminate] end;
    intros X Y; try discriminate; injection X as <-; injection Y as <-; lia.
Qed.

Definition sep_post (m : split_method) (s e : nat) (st : bstate) (t : tree) (st' : bstate) : Prop :=
  sep m t (slice (fst (fst st')) s e) (length (snd (fst st))).
Lemma slice_cons d s e : (s < e)%nat -> slice d s e = aget d s :: slice d (S s) e.
Proof. intros H. unfold slice. replace (e - s)%nat with (S (e - S s)) by lia. reflexivity. Qed.
(** what the partition loop leaves *)
Lemma part_split m ax (test : bprim -> bool) d s k e : (s <= k < e)%nat ->
  (forall j, (s <= j < k)%nat -> test (aget d j) = true) -> (forall j, (k < j < e)%nat -> test (aget d j) = false) ->
  (forall p q, In p (slice d s e) -> In q (slice d s e) -> test p = true -> test q = false -> cen p ax <= cen q ax) ->
  (m = SAH -> (4 < e - s)%nat) ->
  split_ok m ax (slice d s k) (slice d k e).
Proof.
  intros K HL HR HT SM. split.
  - exists (aget d k), (slice d (S k) e). rewrite (slice_cons d k e) by lia. split; [apply Permutation_refl|].
    intros p q Hp Hq. apply in_slice in Hp as (i & Hi & ->). apply in_slice in Hq as (j & Hj & ->).
    apply HT; [apply in_slice; exists i; split; [lia|reflexivity]|apply in_slice; exists j; split; [lia|reflexivity]|apply HL; lia|apply HR; lia].
  - intros E L. rewrite !slice_length in L. specialize (SM E). lia.
Qed.
Lemma build_sep method mp : forall fuel s e st t st',
  (e <= length (fst (fst st)))%nat -> build fuel method mp s e st = Ok (t, st') -> sep_post method s e st t st'.
Proof.
  induction fuel as [|f IH]; intros s e [[d o] tot] t st' He H; [discriminate|].
  cbn [fst] in He. cbn [build] in H.
  destruct (Nat.ltb_spec s e) as [Hse|Hse]; cbn [negb] in H; [|discriminate].
  assert (REC : forall d0 mid dim, rearr s e d d0 -> (s < mid < e)%nat -> split_ok method dim (slice d0 s mid) (slice d0 mid e) ->
    (if (mid =? e)%nat || (mid =? s)%nat then Err AssertionError
     else do (c0, st1) <- build f method mp s mid (d0, o, S tot);
          do (c1, st2) <- build f method mp mid e st1;
          Ok (Node (union_bb (tbounds c0) (tbounds c1)) dim c0 c1, st2)) = Ok (t, st') ->
    sep_post method s e (d, o, tot) t st').
  { intros d0 mid dim R0 Hmid SO HH.
    destruct (Nat.eqb_spec mid e); [lia|]. destruct (Nat.eqb_spec mid s); [lia|]. cbn [orb] in HH.
    assert (L0 : length d0 = length d) by apply R0.
    destruct (build f method mp s mid (d0, o, S tot)) as [[c0 st1]|] eqn:B0; [|discriminate]. cbn [bind] in HH.
    destruct (build f method mp mid e st1) as [[c1 st2]|] eqn:B1; [|discriminate]. cbn [bind] in HH. injection HH as <- <-.
    assert (P0 := B0). apply build_spec in P0; [|cbn; lia]. apply IH in B0; [|cbn; lia].
    destruct st1 as [[d1 o1] t1]. cbn in P0. destruct P0 as (R1 & O1 & _).
    assert (L1 : (e <= length d1)%nat) by (destruct R1; lia).
    assert (P1 := B1). apply build_spec in P1; [|exact L1]. apply IH in B1; [|exact L1].
    destruct st2 as [[d2 o2] t2]. cbn in P1. destruct P1 as (R2 & O2 & _). unfold sep_post in *. cbn [fst snd] in *.
    assert (Es : slice d2 s mid = slice d1 s mid) by (apply slice_ext; intros i Hi; destruct R2 as (_ & R2 & _); apply R2; lia).
    rewrite (slice_app d2 s mid e) by lia. constructor.
    - now rewrite Es.
    - rewrite Es. rewrite O1, app_length, map_length in B1. exact B1.
    - rewrite Es. eapply split_ok_perm; [| |exact SO]; [apply R1|].
      assert (E1 : slice d0 mid e = slice d1 mid e) by (apply slice_ext; intros i Hi; destruct R1 as (_ & R1 & _); symmetry; apply R1; lia).
      rewrite E1. apply R2. }
  assert (LEAF : forall d0, sep method (Leaf (seg_bounds d0 s e) (length o) (e - s)) (slice d0 s e) (length o)).
  { intros d0. rewrite <- (slice_length d0 s e). constructor. }
  destruct (Nat.eqb_spec (e - s) 1) as [E1|E1].
  { injection H as <- <-. apply LEAF. }
  destruct (centroids_finite (slice d s e) (slice_nonempty d s e Hse)) as (lo & hi & CB & CR).
  rewrite <- seg_centroids_slice in CB. rewrite CB in H. set (dim := maximum_extent (fbox lo hi)) in *.
  assert (D3 : (dim < 3)%nat) by (unfold dim, maximum_extent; destruct (_ && _); [lia|destruct (eltb _ _); lia]).
  destruct (CR dim D3) as (CI & (pl & PLI & PLE) & (ph & PHI & PHE)).
  cbn [fbox bmin bmax] in H. rewrite !vnth_vmap_Fin in H.
  destruct (eeqb (Fin (vnth hi dim)) (Fin (vnth lo dim))) eqn:EQ.
  { destruct (Nat.leb_spec (e - s) mp).
    - injection H as <- <-. apply LEAF.
    - apply REC in H; auto using rearr_refl.
      + pose proof (half_between s e ltac:(lia)). lia.
      + pose proof (half_between s e ltac:(lia)) as HB. apply split_ok_all; [apply slice_nonempty; lia|].
        intros p q Hp Hq. cbn in EQ. Rb.
        assert (IP : In p (slice d s e)) by (apply in_slice in Hp as (i & Hi & ->); apply in_slice; exists i; split; [lia|reflexivity]).
        assert (IQ : In q (slice d s e)) by (apply in_slice in Hq as (i & Hi & ->); apply in_slice; exists i; split; [lia|reflexivity]).
        pose proof (CI p IP). pose proof (CI q IQ). lra. }
  assert (LT : vnth lo dim < vnth hi dim).
  { cbn in EQ. Rb. pose proof (CI pl PLI). destruct (Rle_lt_or_eq_dec (vnth lo dim) (vnth hi dim)); lra. }
  assert (RI : forall d' p, rearr s e d d' -> In p (slice d' s e) -> In p (slice d s e)).
  { intros d' p (_ & _ & P) Hp. eapply Permutation_in; [apply Permutation_sym; exact P|exact Hp]. }
  destruct method.
  - cbn [eadd emul] in H. set (pm := / 2 * (vnth hi dim + vnth lo dim)) in *.
    destruct (partition_mid d s e pm dim) as [[d' mid]|] eqn:P; [|discriminate].
    cbn [bind] in H. unfold partition_mid in P.
    apply part_loop_spec with (s := s) (e := e) in P; try lia. destruct P as (R0 & Hm & HL & HR).
    assert (Ns : mid <> s).
    { intros Es. rewrite Es, Nat.eqb_refl, orb_true_r in H. discriminate. }
    apply REC in H; auto; [lia|]. apply (part_split MIDDLE dim (fun p => Rltb (cen p dim) pm)); [lia| | | |discriminate].
    + intros j Hj. specialize (HL j Hj). congruence.
    + intros j Hj. specialize (HR j Hj). congruence.
    + intros p q _ _ T1 T2. Rb. lra.
  - destruct (sah_split _ _ _ _ _ _ _) as [[d' [mid|]]|] eqn:P; [|discriminate|discriminate].
    cbn [bind] in H. unfold sah_split in P.
    destruct (Nat.leb_spec (e - s) 4) as [L4|L4].
    + assert (Hm : mid = ((s + e) / 2)%nat) by congruence. assert (Hd : d' = insertion_sort d s e dim) by congruence.
      pose proof (half_between s e ltac:(lia)) as HB. rewrite <- Hm in HB.
      eapply REC; [| | |exact H]; [rewrite Hd; apply insertion_sort_rearr; lia|lia|].
      apply split_ok_all; [apply slice_nonempty; lia|]. intros p q Hp Hq.
      apply in_slice in Hp as (i & Hi & ->). apply in_slice in Hq as (j & Hj & ->). rewrite Hd. apply (insertion_sorted d s e dim); lia.
    + destruct (fill_buckets _ _ _ _ _) as [bs|]; [|discriminate]. cbn [bind] in P. set (mi := argmin _) in P.
      destruct (_ || _); [|discriminate].
      destruct (bucket_partition _ _ _ _ _ _) as [[d1 m1]|] eqn:Q; [|discriminate].
      cbn [bind] in P. unfold bucket_partition in Q.
      apply part_loop_spec with (s := s) (e := e) in Q; try lia. destruct Q as (R0 & Hm & HL & HR).
      injection P as Ed Em. subst d'.
      set (test := fun p => match bucket_of (fbox lo hi) dim p with Ok b => (b <=? mi)%nat | Err _ => false end).
      assert (TM : forall p q, In p (slice d1 s e) -> In q (slice d1 s e) -> test p = true -> test q = false -> cen p dim <= cen q dim).
      { intros p q Hp Hq Tp Tq. apply (RI _ _ R0) in Hp. apply (RI _ _ R0) in Hq. pose proof (CI p Hp) as Cp. pose proof (CI q Hq) as Cq.
        unfold test in Tp, Tq. destruct (bucket_of_ok lo hi dim p LT Cp) as (bp & Bp & _). destruct (bucket_of_ok lo hi dim q LT Cq) as (bq & Bq & _).
        rewrite Bp in Tp. rewrite Bq in Tq. apply Nat.leb_le in Tp. apply Nat.leb_gt in Tq.
        destruct (Rle_or_lt (cen p dim) (cen q dim)) as [OK|BAD]; [exact OK|].
        pose proof (bucket_mono lo hi dim p q bp bq LT ltac:(lra) ltac:(lra) Bp Bq). lia. }
      assert (HL' : forall j, (s <= j < m1)%nat -> test (aget d1 j) = true).
      { intros j Hj. specialize (HL j Hj). unfold test. destruct (bucket_of _ _ _); [|discriminate]. cbn [bind] in HL. congruence. }
      assert (HR' : forall j, (m1 < j < e)%nat -> test (aget d1 j) = false).
      { intros j Hj. specialize (HR j Hj). unfold test. destruct (bucket_of _ _ _); [|discriminate]. cbn [bind] in HR. congruence. }
      assert (M1 : m1 <> e) by lia.
      destruct (Nat.eqb_spec m1 s) as [Es|Ns].
      * (* the least centroid has bucket 0: it must be the one left behind *)
        assert (T0 : test (aget d1 s) = true).
        { assert (IP : In pl (slice d1 s e)) by (destruct R0 as (_ & _ & PP); eapply Permutation_in; [exact PP|exact PLI]).
          pose proof (CI pl PLI) as CP. destruct (bucket_of_ok lo hi dim pl LT CP) as (b0 & B0 & _ & Z0 & _). rewrite (Z0 (eq_sym PLE)) in B0.
          assert (TP : test pl = true) by (unfold test; rewrite B0; reflexivity).
          apply in_slice in IP as (i & Hi & Ei). destruct (Nat.eq_dec i s) as [->|Ni]; [now rewrite <- Ei|].
          rewrite Ei, HR' in TP by lia. discriminate. }
        subst mid m1. apply REC in H; auto; [lia|]. apply split_ok_all; [apply slice_nonempty; lia|].
        intros p q Hp Hq. apply in_slice in Hp as (i & Hi & ->). apply in_slice in Hq as (j & Hj & ->). assert (i = s) by lia. subst i.
        apply TM; [apply in_slice; exists s; split; [lia|reflexivity]|apply in_slice; exists j; split; [lia|reflexivity]|exact T0|apply HR'; lia].
      * destruct (Nat.eqb_spec m1 e); [lia|]. subst mid. apply REC in H; auto; [lia|].
        apply (part_split SAH dim test); auto; lia.
Qed.
Lemma stored_sep m ps : forall t l off, sep m t l off -> forall pre post, ps = pre ++ l ++ post -> length pre = off ->
  stored (map bp_idx ps) t = map bp_idx l /\
  forall b ax c0 c1, subtree (Node b ax c0 c1) t -> exists l0 l1, stored (map bp_idx ps) c0 = map bp_idx l0 /\
    stored (map bp_idx ps) c1 = map bp_idx l1 /\ split_ok m ax l0 l1 /\ (forall p, In p (l0 ++ l1) -> In p l).
Proof.
  induction 1 as [b l off|b ax c0 c1 l0 l1 off H0 IH0 H1 IH1 SO]; intros pre post E Lp.
  - split; [|intros; match goal with K : subtree _ _ |- _ => inversion K end].
    cbn. rewrite E, !map_app. rewrite skipn_app. rewrite map_length, Lp, Nat.sub_diag. cbn [skipn].
    rewrite skipn_all2 by (rewrite map_length; lia). cbn [app].
    rewrite firstn_app, map_length, Nat.sub_diag. cbn [firstn]. rewrite app_nil_r.
    rewrite <- (map_length bp_idx l) at 1. apply firstn_all.
  - destruct (IH0 pre (l1 ++ post)) as [S0 T0]; [now rewrite E, <- app_assoc|auto|].
    destruct (IH1 (pre ++ l0) post) as [S1 T1]; [now rewrite E, <- !app_assoc|rewrite app_length; lia|].
    split; [cbn [stored]; now rewrite S0, S1, map_app|].
    intros b' ax' a0 a1 HS. inversion HS; subst.
    + exists l0, l1. auto.
    + destruct (T0 b' ax' a0 a1 ltac:(assumption)) as (x & y & ? & ? & ? & I0). exists x, y. repeat (split; [assumption|]). intros p Hp. apply in_or_app. left. auto.
    + destruct (T1 b' ax' a0 a1 ltac:(assumption)) as (x & y & ? & ? & ? & I1). exists x, y. repeat (split; [assumption|]). intros p Hp. apply in_or_app. right. auto.
Qed.
Lemma bvh_split method mp bounds t ordered n b ax c0 c1 : bvh_build method mp bounds = Ok (t, ordered, n) -> subtree (Node b ax c0 c1) t ->
  (exists x rest, Permutation (stored ordered c1) (x :: rest) /\
     forall i j, In i (stored ordered c0) -> In j rest -> centre bounds i ax <= centre bounds j ax) /\
  (method = SAH -> (length (stored ordered c0) + length (stored ordered c1) <= 4)%nat ->
     forall i j, In i (stored ordered c0) -> In j (stored ordered c1) -> centre bounds i ax <= centre bounds j ax).
Proof.
  intros B HS. assert (B' := B). unfold bvh_build in B.
  destruct (build _ _ _ _ _ _) as [[t' [[d' o'] tot']]|] eqn:BB; [|discriminate]. cbn [bind] in B. injection B as -> -> ->.
  assert (HL : (length bounds <= length (fst (fst (build_data bounds, @nil nat, 0%nat))))%nat) by (cbn; rewrite build_data_length; lia).
  assert (SP := BB). apply build_sep in SP; [|exact HL]. assert (BS := BB). apply build_spec in BS; [|exact HL]. unfold sep_post in SP. cbn in SP, BS.
  destruct BS as ((_ & _ & P) & O & _). set (ps := slice d' 0 (length bounds)) in *.
  assert (P' : Permutation ps (build_data bounds)).
  { apply Permutation_sym. rewrite <- (slice_all (build_data bounds)) at 1. now rewrite build_data_length. }
  destruct (stored_sep method ps t ps 0 SP [] [] ltac:(now rewrite app_nil_r) eq_refl) as [S T].
  destruct (T b ax c0 c1 HS) as (l0 & l1 & E0 & E1 & ((x & rest & PX & HX) & HS4) & HI). rewrite O, E0, E1.
  assert (CC : forall p, In p ps -> cen p ax = centre bounds (bp_idx p) ax).
  { intros p Hp. apply In_nth with (d := dflt) in Hp as (j & Hj & Ej). destruct (ps_nth bounds ps j P' Hj) as [Hk Q]. rewrite Ej in Q.
    set (k := nth j (map bp_idx ps) 0%nat) in *. rewrite Q. cbn [bp_idx]. unfold centre, bp_centroid; cbn [bp_lo bp_hi].
    destruct (nth k bounds (vzero, vzero)) as [lo hi]; cbn [fst snd]. unfold vscale, vadd, vmap2, vmap. destruct ax as [|[|ax]]; cbn; field. }
  split.
  - exists (bp_idx x), (map bp_idx rest). split; [rewrite (Permutation_map bp_idx PX); reflexivity|].
    intros i j Hi Hj. apply in_map_iff in Hi as (p & <- & Hp). apply in_map_iff in Hj as (q & <- & Hq).
    rewrite <- !CC; [apply HX; auto| |]; apply HI, in_or_app; [right; eapply Permutation_in; [apply Permutation_sym; exact PX|now right]|now left].
  - intros M L i j Hi Hj. rewrite !map_length in L. apply in_map_iff in Hi as (p & <- & Hp). apply in_map_iff in Hj as (q & <- & Hq).
    rewrite <- !CC; [apply HS4; auto| |]; apply HI, in_or_app; auto.
Qed.
