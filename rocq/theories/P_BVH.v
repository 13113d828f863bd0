(** Proofs about BVH construction and layout. *)
From Coq Require Import Reals Lra Lia List Bool ZArith Arith Permutation Psatz.
From Verif Require Import Base M_Geometry S_Geometry P_Geometry M_BVH S_BVH.
Import ListNotations.

(** ** arrays *)
Lemma aset_length {A} (d : list A) : forall i x, length (aset d i x) = length d.
Proof. induction d; intros [|i] x; cbn; auto. Qed.
Lemma nth_aset {A} (d : list A) : forall i j x y,
  nth j (aset d i x) y = if (j =? i)%nat then (if (i <? length d)%nat then x else y) else nth j d y.
Proof.
  induction d; intros [|i] [|j] x y; cbn; auto.
  - destruct (j =? i)%nat; reflexivity.
  - rewrite IHd. reflexivity.
Qed.
Lemma nth_error_aset {A} (d : list A) : forall i j x,
  nth_error (aset d i x) j = if (j =? i)%nat then (if (i <? length d)%nat then Some x else None) else nth_error d j.
Proof.
  induction d; intros [|i] [|j] x; cbn; auto.
  - destruct (j =? i)%nat; reflexivity.
  - rewrite IHd. reflexivity.
Qed.
Lemma aget_aset d i j x : (i < length d)%nat ->
  aget (aset d i x) j = if (j =? i)%nat then x else aget d j.
Proof.
  intros H. unfold aget. rewrite nth_aset.
  destruct (j =? i)%nat; auto. apply Nat.ltb_lt in H. now rewrite H.
Qed.
Lemma aswap_length d i k : length (aswap d i k) = length d.
Proof. unfold aswap. now rewrite !aset_length. Qed.
Lemma aget_aswap d i k j : (i < length d)%nat -> (k < length d)%nat ->
  aget (aswap d i k) j = if (j =? k)%nat then aget d i else if (j =? i)%nat then aget d k else aget d j.
Proof.
  intros. unfold aswap. rewrite aget_aset by (rewrite aset_length; auto).
  rewrite aget_aset by auto. reflexivity.
Qed.

(** ** slices *)
Lemma slice_length d s e : length (slice d s e) = (e - s)%nat.
Proof. unfold slice. now rewrite map_length, seq_length. Qed.
Lemma nth_slice d s e j : (j < e - s)%nat -> nth j (slice d s e) dflt = aget d (s + j).
Proof.
  intros. unfold slice.
  rewrite nth_indep with (d' := aget d 0%nat) by (rewrite map_length, seq_length; auto).
  rewrite map_nth with (d := 0%nat). now rewrite seq_nth.
Qed.
Lemma slice_app d s m e : (s <= m <= e)%nat -> slice d s e = slice d s m ++ slice d m e.
Proof.
  intros. unfold slice. rewrite <- map_app. f_equal.
  replace (e - s)%nat with ((m - s) + (e - m))%nat by lia. rewrite seq_app. do 2 f_equal. lia.
Qed.
Lemma slice_ext d d' s e : (forall i, (s <= i < e)%nat -> aget d i = aget d' i) ->
  slice d s e = slice d' s e.
Proof.
  intros H. unfold slice. apply map_ext_in. intros i Hi. apply in_seq in Hi. apply H. lia.
Qed.
Lemma in_slice d s e p : In p (slice d s e) <-> exists i, (s <= i < e)%nat /\ p = aget d i.
Proof.
  unfold slice. rewrite in_map_iff. split.
  - intros (i&<-&Hi). apply in_seq in Hi. exists i. split; auto; lia.
  - intros (i&Hi&->). exists i. split; auto. apply in_seq. lia.
Qed.

Lemma slice_swap_perm d s e i k : (e <= length d)%nat -> (s <= i < e)%nat -> (s <= k < e)%nat ->
  Permutation (slice d s e) (slice (aswap d i k) s e).
Proof.
  intros He Hi Hk. apply (Permutation_nth _ _ dflt). rewrite slice_length. cbn zeta.
  split; [now rewrite slice_length|].
  exists (fun x => if (x =? k - s)%nat then (i - s)%nat else if (x =? i - s)%nat then (k - s)%nat else x).
  split; [|split].
  - intros x Hx. destruct (x =? k - s)%nat; [lia|]. destruct (x =? i - s)%nat; lia.
  - intros x y Hx Hy.
    destruct (Nat.eqb_spec x (k - s)), (Nat.eqb_spec x (i - s)), (Nat.eqb_spec y (k - s)), (Nat.eqb_spec y (i - s)); lia.
  - intros x Hx. rewrite nth_slice by auto. rewrite aget_aswap by lia.
    destruct (Nat.eqb_spec (s + x) k) as [Hc|Hc].
    + destruct (Nat.eqb_spec x (k - s)); [|lia]. rewrite nth_slice by lia. f_equal. lia.
    + destruct (Nat.eqb_spec x (k - s)); [lia|].
      destruct (Nat.eqb_spec (s + x) i).
      * destruct (Nat.eqb_spec x (i - s)); [|lia]. rewrite nth_slice by lia. f_equal. lia.
      * destruct (Nat.eqb_spec x (i - s)); [lia|]. now rewrite nth_slice by lia.
Qed.

(** [rearr s e d d']: d' is d with the segment [s,e) permuted. *)
Definition rearr (s e : nat) (d d' : list bprim) : Prop :=
  length d' = length d /\ (forall i, (i < s \/ e <= i)%nat -> aget d' i = aget d i) /\
  Permutation (slice d s e) (slice d' s e).
Lemma rearr_refl s e d : rearr s e d d.
Proof. repeat split; auto. Qed.
Lemma rearr_trans s e d1 d2 d3 : rearr s e d1 d2 -> rearr s e d2 d3 -> rearr s e d1 d3.
Proof.
  intros (A&B&C) (A'&B'&C'). split; [congruence|]. split.
  - intros i Hi. rewrite B', B; auto.
  - eapply Permutation_trans; eauto.
Qed.
Lemma rearr_swap s e d i k : (e <= length d)%nat -> (s <= i < e)%nat -> (s <= k < e)%nat ->
  rearr s e d (aswap d i k).
Proof.
  intros He Hi Hk. split; [apply aswap_length|]. split.
  - intros j Hj. rewrite aget_aswap by lia.
    destruct (Nat.eqb_spec j k); [lia|]. destruct (Nat.eqb_spec j i); [lia|auto].
  - now apply slice_swap_perm.
Qed.
(** widening the segment *)
Lemma rearr_widen s e s' e' d d' : (s' <= s)%nat -> (s <= e)%nat -> (e <= e')%nat ->
  rearr s e d d' -> rearr s' e' d d'.
Proof.
  intros H1 H2 H3 (A&B&C). split; auto. split; [intros; apply B; lia|].
  rewrite (slice_app d s' s e') by lia. rewrite (slice_app d s e e') by lia.
  rewrite (slice_app d' s' s e') by lia. rewrite (slice_app d' s e e') by lia.
  apply Permutation_app; [|apply Permutation_app; auto].
  - rewrite (slice_ext d d' s' s); auto. intros; symmetry; apply B; lia.
  - rewrite (slice_ext d d' e e'); auto. intros; symmetry; apply B; lia.
Qed.

(** ** partition loops *)
Lemma part_loop_spec (test : bprim -> res bool) s e : forall fuel d i k d' m,
  (e <= length d)%nat -> (s <= i)%nat -> (i <= k)%nat -> (k < e)%nat -> (k - i <= fuel)%nat ->
  (forall j, (s <= j < i)%nat -> test (aget d j) = Ok true) ->
  (forall j, (k < j < e)%nat -> test (aget d j) = Ok false) ->
  part_loop fuel test d i k = Ok (d', m) ->
  rearr s e d d' /\ (i <= m <= k)%nat /\
  (forall j, (s <= j < m)%nat -> test (aget d' j) = Ok true) /\
  (forall j, (m < j < e)%nat -> test (aget d' j) = Ok false).
Proof.
  induction fuel as [|f IH]; intros d i k d' m He Hs Hik Hk Hf L R H.
  - cbn in H. injection H as <- <-. assert (i = k) by lia. subst.
    split; [apply rearr_refl|]. auto with arith.
  - cbn in H. destruct (Nat.ltb_spec i k) as [Hlt|Hge].
    + destruct (test (aget d i)) as [b|] eqn:T; [|discriminate]. cbn in H. destruct b.
      * apply IH in H; auto; try lia.
        -- destruct H as (A&B&C). split; auto. split; [lia|auto].
        -- intros j Hj. destruct (Nat.eq_dec j i); [subst; auto|apply L; lia].
      * apply IH in H; try lia.
        -- destruct H as (A&B&C). split; [|split; [lia|auto]].
           eapply rearr_trans; [|exact A]. apply rearr_swap; lia.
        -- rewrite aswap_length; lia.
        -- intros j Hj. rewrite aget_aswap by lia.
           destruct (Nat.eqb_spec j k); [lia|]. destruct (Nat.eqb_spec j i); [lia|]. apply L; lia.
        -- intros j Hj. rewrite aget_aswap by lia.
           destruct (Nat.eqb_spec j k); [subst; auto|]. destruct (Nat.eqb_spec j i); [lia|]. apply R; lia.
    + injection H as <- <-. assert (i = k) by lia. subst.
      split; [apply rearr_refl|]. auto with arith.
Qed.

(** the loop only fails if the test fails on an element of the segment *)
Lemma part_loop_ok (test : bprim -> res bool) s e : forall fuel d i k,
  (e <= length d)%nat -> (s <= i)%nat -> (i <= k)%nat -> (k < e)%nat ->
  (forall j, (s <= j < e)%nat -> is_ok (test (aget d j)) = true) ->
  is_ok (part_loop fuel test d i k) = true.
Proof.
  induction fuel as [|f IH]; intros d i k He Hs Hik Hk T; [reflexivity|].
  cbn. destruct (Nat.ltb_spec i k) as [Hlt|Hge]; [|reflexivity].
  pose proof (T i ltac:(lia)) as Ti. destruct (test (aget d i)) as [b|] eqn:E; [|discriminate].
  cbn. destruct b; apply IH; auto; try lia.
  - rewrite aswap_length; auto.
  - intros j Hj. rewrite aget_aswap by lia.
    destruct (Nat.eqb_spec j k); [apply T; lia|]. destruct (Nat.eqb_spec j i); apply T; lia.
Qed.

(** ** insertion sort *)
Lemma aset_same d i : (i < length d)%nat -> aset d i (aget d i) = d.
Proof.
  revert i. induction d; intros [|i] H; cbn in *; try lia; auto.
  f_equal. apply IHd. lia.
Qed.
Lemma aget_ext d d' : length d = length d' -> (forall i, aget d i = aget d' i) -> d = d'.
Proof. intros H1 H2. apply (nth_ext d d' dflt dflt); auto. intros; apply H2. Qed.

Lemma ins_loop_spec start dim dk e : forall k d, (start <= k)%nat -> (k < e)%nat -> (e <= length d)%nat ->
  rearr start e (aset d k dk) (ins_loop k start dim dk d).
Proof.
  induction k as [|k IH]; intros d Hs Hk He; cbn [ins_loop].
  - apply rearr_refl.
  - destruct ((start <? S k)%nat && _) eqn:C; [|apply rearr_refl].
    apply andb_true_iff in C. destruct C as [C _]. apply Nat.ltb_lt in C.
    eapply rearr_trans; [|apply IH; try lia; rewrite aset_length; lia].
    assert (X : aset (aset d (S k) (aget d k)) k dk = aswap (aset d (S k) dk) k (S k)).
    { apply aget_ext.
      - rewrite aswap_length, !aset_length. reflexivity.
      - intros j. rewrite aget_aswap by (rewrite aset_length; lia).
        rewrite !aget_aset by (try rewrite aset_length; lia).
        rewrite Nat.eqb_refl.
        destruct (Nat.eqb_spec j k), (Nat.eqb_spec j (S k)); try lia; auto.
        destruct (Nat.eqb_spec k (S k)); [lia|auto]. }
    rewrite X. apply rearr_swap; try rewrite aset_length; lia.
Qed.

Lemma insertion_sort_rearr d start e dim : (start <= e)%nat -> (e <= length d)%nat ->
  rearr start e d (insertion_sort d start e dim).
Proof.
  intros Hse He. unfold insertion_sort.
  assert (G : forall is d0, rearr start e d d0 -> Forall (fun i => start <= i < e)%nat is ->
     rearr start e d (fold_left (fun d i => ins_loop i start dim (aget d i) d) is d0)).
  { induction is as [|i is IH]; intros d0 H0 Hf; cbn; auto.
    inversion Hf; subst. apply IH; auto.
    eapply rearr_trans; [exact H0|]. destruct H0 as [Hl _].
    pose proof (ins_loop_spec start dim (aget d0 i) e i d0 ltac:(lia) ltac:(lia) ltac:(lia)) as Q.
    rewrite aset_same in Q by lia. exact Q. }
  apply G; [apply rearr_refl|]. apply Forall_forall. intros i Hi. apply in_seq in Hi. lia.
Qed.

(** ** bounds *)
Lemma fold_union_bounds (l : list bprim) : forall b,
  fold_left (fun b p => union_bb b (bp_bounds p)) l b =
  accumulate b (map (fun p => GB (bp_bounds p)) l).
Proof. induction l; intros; [reflexivity|exact (IHl _)]. Qed.
Lemma fold_left_map {A B C} (f : A -> B -> A) (g : C -> B) l : forall a,
  fold_left (fun a c => f a (g c)) l a = fold_left f (map g l) a.
Proof. induction l; intros; cbn; auto. Qed.

Lemma seg_bounds_slice d s e : seg_bounds d s e = bounds_of (slice d s e).
Proof.
  unfold seg_bounds, bounds_of, slice. rewrite <- fold_union_bounds.
  exact (fold_left_map (fun b p => union_bb b (bp_bounds p)) (aget d) (seq s (e - s)) bbox_empty).
Qed.
Lemma seg_centroids_slice d s e : seg_centroids d s e =
  accumulate bbox_empty (map (fun p => GP (vmap Fin (bp_centroid p))) (slice d s e)).
Proof.
  unfold seg_centroids, slice, accumulate. rewrite map_map.
  exact (fold_left_map add_geom (fun i => GP (vmap Fin (bp_centroid (aget d i)))) (seq s (e - s)) bbox_empty).
Qed.

Lemma bp_geom_ok p : geom_ok (GB (bp_bounds p)).
Proof. repeat split; discriminate. Qed.
Lemma bps_geom_ok ps : Forall geom_ok (map (fun p => GB (bp_bounds p)) ps).
Proof. apply Forall_forall. intros g Hg. apply in_map_iff in Hg. destruct Hg as (p&<-&_). apply bp_geom_ok. Qed.
Lemma cents_geom_ok ps : Forall geom_ok (map (fun p => GP (vmap Fin (bp_centroid p))) ps).
Proof.
  apply Forall_forall. intros g Hg. apply in_map_iff in Hg. destruct Hg as (p&<-&_).
  repeat split; discriminate.
Qed.

Lemma bounds_of_ok ps : box_ok (bounds_of ps).
Proof. apply accumulate_ok; auto using empty_ok, bps_geom_ok. Qed.
Lemma bounds_of_perm ps qs : Permutation ps qs -> bounds_of ps = bounds_of qs.
Proof.
  intros H. apply accumulate_set_ext; auto using bps_geom_ok.
  intros g. rewrite !in_map_iff. split; intros (p&E&Hp); exists p; split; auto;
  [|apply Permutation_sym in H]; eapply Permutation_in; eauto.
Qed.
Lemma bounds_of_covers ps p : In p ps -> box_le (bp_bounds p) (bounds_of ps).
Proof.
  intros H. destruct (accumulate_covers (map (fun p => GB (bp_bounds p)) ps) bbox_empty) as [Q _];
    auto using empty_ok, bps_geom_ok.
  rewrite Forall_forall in Q. apply (Q (GB (bp_bounds p))). apply in_map_iff. eauto.
Qed.
Lemma bounds_of_least ps c : box_ok c -> (forall p, In p ps -> box_le (bp_bounds p) c) -> box_le (bounds_of ps) c.
Proof.
  intros Hc H. apply accumulate_lub; auto using empty_ok, bps_geom_ok.
  split; [now apply empty_le|]. apply Forall_forall. intros g Hg.
  apply in_map_iff in Hg. destruct Hg as (p&<-&Hp). cbn. auto.
Qed.
Lemma union_bb_lub a b c : box_ok a -> box_ok b -> (box_le (union_bb a b) c <-> box_le a c /\ box_le b c).
Proof. intros Ha Hb. exact (add_geom_lub a (GB b) c Ha Hb). Qed.
Lemma union_bb_ok a b : box_ok a -> box_ok b -> box_ok (union_bb a b).
Proof. intros Ha Hb. exact (add_geom_ok a (GB b) Ha Hb). Qed.
Lemma bounds_of_app ps qs : bounds_of (ps ++ qs) = union_bb (bounds_of ps) (bounds_of qs).
Proof.
  apply box_le_antisym.
  - assert (U : box_ok (union_bb (bounds_of ps) (bounds_of qs))) by (apply union_bb_ok; apply bounds_of_ok).
    pose proof (box_le_refl _ U) as Q. apply union_bb_lub in Q; auto using bounds_of_ok. destruct Q.
    apply bounds_of_least; auto.
    intros p Hp. apply in_app_or in Hp. destruct Hp as [Hp|Hp];
      (eapply box_le_trans; [eapply bounds_of_covers; eassumption|assumption]).
  - apply union_bb_lub; auto using bounds_of_ok.
    split; apply bounds_of_least; auto using bounds_of_ok; intros p Hp; apply bounds_of_covers, in_or_app; auto.
Qed.

(** the accumulated box of a non-empty set of finite geometry is finite *)
Definition efinite (e : E) : Prop := exists x, e = Fin x.
Definition finite3 (v : V3 E) : Prop := efinite (vx v) /\ efinite (vy v) /\ efinite (vz v).

Lemma between_finite lo hi x y : ele lo (Fin x) -> ele (Fin y) lo -> ele (Fin x) hi -> ele hi (Fin y) ->
  efinite lo /\ efinite hi.
Proof.
  intros A B C D. split.
  - destruct lo; cbn in *; try discriminate; eexists; reflexivity.
  - destruct hi; cbn in *; try discriminate; eexists; reflexivity.
Qed.

(** centroid bounds of a non-empty slice: finite and attained per axis *)
Lemma fin_acc_axis (ps : list bprim) (f : bprim -> R) : ps <> [] ->
  exists m M, fold_left (fun e p => emin e (Fin (f p))) ps PInf = Fin m /\
              fold_left (fun e p => emax e (Fin (f p))) ps NInf = Fin M /\
              (forall p, In p ps -> m <= f p <= M) /\
              (exists p, In p ps /\ m = f p) /\ (exists p, In p ps /\ M = f p).
Proof.
  intros Hne.
  assert (G : forall ps m M, exists m' M',
     fold_left (fun e p => emin e (Fin (f p))) ps (Fin m) = Fin m' /\
     fold_left (fun e p => emax e (Fin (f p))) ps (Fin M) = Fin M' /\
     m' <= m /\ M <= M' /\ (forall p, In p ps -> m' <= f p <= M') /\
     (m' = m \/ exists p, In p ps /\ m' = f p) /\ (M' = M \/ exists p, In p ps /\ M' = f p)).
  { clear. induction ps as [|p ps IH]; intros m M.
    - exists m, M. cbn. repeat split; auto; try lra; tauto.
    - cbn. rewrite emin_Fin, emax_Fin.
      destruct (IH (Rmin m (f p)) (Rmax M (f p))) as (m'&M'&A&B&C&D&F&G1&G2).
      exists m', M'. split; auto. split; auto.
      pose proof (Rmin_l m (f p)). pose proof (Rmin_r m (f p)).
      pose proof (Rmax_l M (f p)). pose proof (Rmax_r M (f p)).
      split; [lra|]. split; [lra|]. split; [|split].
      + intros q [<-|Hq]; [lra|auto].
      + destruct G1 as [G1|(q&Hq&G1)]; [|right; exists q; auto].
        rewrite G1. unfold Rmin. destruct Rle_dec; [left; auto|right; exists p; auto].
      + destruct G2 as [G2|(q&Hq&G2)]; [|right; exists q; auto].
        rewrite G2. unfold Rmax. destruct Rle_dec; [right; exists p; auto|left; auto]. }
  destruct ps as [|p ps]; [congruence|]. cbn.
  change (emin PInf (Fin (f p))) with (Fin (f p)).
  change (emax NInf (Fin (f p))) with (Fin (f p)).
  destruct (G ps (f p) (f p)) as (m&M&A&B&C&D&F&G1&G2).
  exists m, M. repeat split; auto.
  - destruct H as [<-|H]; auto. apply F; auto.
  - destruct H as [<-|H]; auto. apply F; auto.
  - destruct G1 as [->|(q&Hq&->)]; eauto.
  - destruct G2 as [->|(q&Hq&->)]; eauto.
Qed.

Lemma acc_points_axes ps : forall b,
  accumulate b (map (fun p => GP (vmap Fin (bp_centroid p))) ps) =
  mkBox (mkV (fold_left (fun e p => emin e (Fin (vx (bp_centroid p)))) ps (vx (bmin b)))
             (fold_left (fun e p => emin e (Fin (vy (bp_centroid p)))) ps (vy (bmin b)))
             (fold_left (fun e p => emin e (Fin (vz (bp_centroid p)))) ps (vz (bmin b))))
        (mkV (fold_left (fun e p => emax e (Fin (vx (bp_centroid p)))) ps (vx (bmax b)))
             (fold_left (fun e p => emax e (Fin (vy (bp_centroid p)))) ps (vy (bmax b)))
             (fold_left (fun e p => emax e (Fin (vz (bp_centroid p)))) ps (vz (bmax b)))).
Proof.
  induction ps as [|p ps IH]; intros b.
  - cbn. destruct b as [[] []]; reflexivity.
  - cbn [map]. change (accumulate b (?g :: ?l)) with (accumulate (add_geom b g) l).
    rewrite IH. reflexivity.
Qed.

Lemma acc_boxes_axes ps : forall b,
  accumulate b (map (fun p => GB (bp_bounds p)) ps) =
  mkBox (mkV (fold_left (fun e p => emin e (Fin (vx (bp_lo p)))) ps (vx (bmin b)))
             (fold_left (fun e p => emin e (Fin (vy (bp_lo p)))) ps (vy (bmin b)))
             (fold_left (fun e p => emin e (Fin (vz (bp_lo p)))) ps (vz (bmin b))))
        (mkV (fold_left (fun e p => emax e (Fin (vx (bp_hi p)))) ps (vx (bmax b)))
             (fold_left (fun e p => emax e (Fin (vy (bp_hi p)))) ps (vy (bmax b)))
             (fold_left (fun e p => emax e (Fin (vz (bp_hi p)))) ps (vz (bmax b)))).
Proof.
  induction ps as [|p ps IH]; intros b.
  - cbn. destruct b as [[] []]; reflexivity.
  - cbn [map]. change (accumulate b (?g :: ?l)) with (accumulate (add_geom b g) l).
    rewrite IH. reflexivity.
Qed.

Lemma fin_min_axis (ps : list bprim) (f : bprim -> R) : ps <> [] ->
  exists m, fold_left (fun e p => emin e (Fin (f p))) ps PInf = Fin m /\
    (forall p, In p ps -> m <= f p) /\ (exists p, In p ps /\ m = f p).
Proof. intros H. destruct (fin_acc_axis ps f H) as (m&M&A&B&C&D&F). exists m. split; auto. split; auto. intros; apply C; auto. Qed.
Lemma fin_max_axis (ps : list bprim) (f : bprim -> R) : ps <> [] ->
  exists m, fold_left (fun e p => emax e (Fin (f p))) ps NInf = Fin m /\
    (forall p, In p ps -> f p <= m) /\ (exists p, In p ps /\ m = f p).
Proof. intros H. destruct (fin_acc_axis ps f H) as (m&M&A&B&C&D&F). exists M. split; auto. split; auto. intros; apply C; auto. Qed.

(** node bounds are finite boxes whose corner coordinates come from primitives *)
Lemma bounds_of_finite ps : ps <> [] -> exists lo hi, bounds_of ps = fbox lo hi /\
  (forall p, In p ps -> vle lo (bp_lo p) /\ vle (bp_hi p) hi) /\
  (exists p, In p ps /\ vx lo = vx (bp_lo p)) /\ (exists p, In p ps /\ vx hi = vx (bp_hi p)).
Proof.
  intros H. unfold bounds_of. rewrite acc_boxes_axes. cbn.
  destruct (fin_min_axis ps (fun p => vx (bp_lo p)) H) as (a&Ea&Ha&Ta).
  destruct (fin_min_axis ps (fun p => vy (bp_lo p)) H) as (b&Eb&Hb&_).
  destruct (fin_min_axis ps (fun p => vz (bp_lo p)) H) as (c&Ec&Hc&_).
  destruct (fin_max_axis ps (fun p => vx (bp_hi p)) H) as (a'&Ea'&Ha'&Ta').
  destruct (fin_max_axis ps (fun p => vy (bp_hi p)) H) as (b'&Eb'&Hb'&_).
  destruct (fin_max_axis ps (fun p => vz (bp_hi p)) H) as (c'&Ec'&Hc'&_).
  rewrite Ea, Eb, Ec, Ea', Eb', Ec'.
  exists (mkV a b c), (mkV a' b' c'). split; [reflexivity|].
  split; [|split; auto].
  intros p Hp. unfold vle; cbn. auto.
Qed.

Lemma centroids_finite ps : ps <> [] ->
  exists lo hi, accumulate bbox_empty (map (fun p => GP (vmap Fin (bp_centroid p))) ps) = fbox lo hi /\
  forall i, (i < 3)%nat -> (forall p, In p ps -> vnth lo i <= vnth (bp_centroid p) i <= vnth hi i) /\
    (exists p, In p ps /\ vnth lo i = vnth (bp_centroid p) i) /\
    (exists p, In p ps /\ vnth hi i = vnth (bp_centroid p) i).
Proof.
  intros H. rewrite acc_points_axes. cbn [bbox_empty bmin bmax vx vy vz].
  destruct (fin_acc_axis ps (fun p => vx (bp_centroid p)) H) as (a&a'&A1&A2&A3&A4&A5).
  destruct (fin_acc_axis ps (fun p => vy (bp_centroid p)) H) as (b&b'&B1&B2&B3&B4&B5).
  destruct (fin_acc_axis ps (fun p => vz (bp_centroid p)) H) as (c&c'&C1&C2&C3&C4&C5).
  rewrite A1, A2, B1, B2, C1, C2.
  exists (mkV a b c), (mkV a' b' c'). split; [reflexivity|].
  intros i Hi. destruct i as [|[|[|i]]]; cbn; auto; lia.
Qed.

Lemma slice_nonempty d s e : (s < e)%nat -> slice d s e <> [].
Proof. intros H Hn. pose proof (slice_length d s e). rewrite Hn in H0. cbn in H0. lia. Qed.

Lemma vnth_vmap_Fin v i : vnth (vmap Fin v) i = Fin (vnth v i).
Proof. destruct i as [|[|i]]; reflexivity. Qed.

(** ** buckets *)
Lemma bucket_of_ok lo hi dim p :
  vnth lo dim < vnth hi dim -> vnth lo dim <= vnth (bp_centroid p) dim <= vnth hi dim ->
  exists b, bucket_of (fbox lo hi) dim p = Ok b /\ (b < 12)%nat /\
    (vnth (bp_centroid p) dim = vnth lo dim -> b = 0%nat) /\
    (vnth (bp_centroid p) dim = vnth hi dim -> b = 11%nat).
Proof.
  intros Hlt Hc. unfold bucket_of, fbox; cbn [bmin bmax]. rewrite !vnth_vmap_Fin.
  unfold esub; cbn [eadd eopp ediv]. unfold edivz.
  set (c := vnth (bp_centroid p) dim) in *. set (l := vnth lo dim) in *. set (h := vnth hi dim) in *.
  destruct (Reqb (h + - l) 0) eqn:C; Rb; [lra|].
  cbn [emul eint bind].
  set (q := (c + - l) / (h + - l)).
  assert (Hq : 0 <= q <= 1).
  { unfold q. split.
    - apply Rmult_le_reg_r with (h + - l); [lra|]. unfold Rdiv. rewrite Rmult_assoc, Rinv_l by lra. lra.
    - apply Rmult_le_reg_r with (h + - l); [lra|]. unfold Rdiv. rewrite Rmult_assoc, Rinv_l by lra. lra. }
  unfold n_buckets. rewrite Ztrunc_nonneg by lra.
  assert (Z0 : (0 <= Zfloor (12 * q))%Z) by (apply Zfloor_ge; lra).
  assert (Z1 : (Zfloor (12 * q) <= 12)%Z).
  { destruct (Zfloor_spec (12 * q)). apply le_IZR. lra. }
  assert (E0 : c = l -> Zfloor (12 * q) = 0%Z).
  { intros X. apply Zfloor_unique. unfold q. rewrite X. unfold Rdiv. rewrite Rplus_opp_r. lra. }
  assert (E1 : c = h -> Zfloor (12 * q) = 12%Z).
  { intros X. apply Zfloor_unique. unfold q. rewrite X. unfold Rdiv. rewrite Rinv_r by lra. lra. }
  destruct (Z.eqb_spec (Zfloor (12 * q)) 12) as [E|E].
  - rewrite E. cbn. exists 11%nat. split; [reflexivity|]. split; [lia|]. split; [|auto].
    intros X. apply E0 in X. lia.
  - assert ((0 <=? Zfloor (12 * q))%Z && (Zfloor (12 * q) <? 12)%Z = true) as ->.
    { apply andb_true_iff; split; [apply Z.leb_le|apply Z.ltb_lt]; lia. }
    eexists. split; [reflexivity|]. split; [lia|]. split; intros X.
    + apply E0 in X. rewrite X. reflexivity.
    + apply E1 in X. lia.
Qed.

Lemma fill_buckets_ok d lo hi dim : vnth lo dim < vnth hi dim -> forall is bs,
  (forall i, In i is -> vnth lo dim <= vnth (bp_centroid (aget d i)) dim <= vnth hi dim) ->
  is_ok (fill_buckets d (fbox lo hi) dim is bs) = true.
Proof.
  intros Hlt. induction is as [|i is IH]; intros bs H; cbn; auto.
  destruct (bucket_of_ok lo hi dim (aget d i) Hlt (H i (or_introl eq_refl))) as (b&->&Hb&_).
  cbn. destruct (nth b bs (0%nat, bbox_empty)) as [c bb]. apply IH. intros; apply H; now right.
Qed.

(** ** building *)
Lemma describes_nonempty t ps off : describes t ps off -> ps <> [].
Proof.
  induction 1; auto. intros Hn. apply app_eq_nil in Hn. tauto.
Qed.
Lemma describes_bounds t ps off : describes t ps off -> tbounds t = bounds_of ps.
Proof. destruct 1; reflexivity. Qed.

Lemma half_between s e : (s + 2 <= e)%nat -> (s < (s + e) / 2 < e)%nat.
Proof.
  intros. pose proof (Nat.div_mod (s + e) 2 ltac:(lia)). pose proof (Nat.mod_upper_bound (s + e) 2 ltac:(lia)). lia.
Qed.

Definition build_post (s e : nat) (st : bstate) (t : tree) (st' : bstate) : Prop :=
  let '(d, o, tot) := st in let '(d', o', tot') := st' in
  rearr s e d d' /\ o' = o ++ map bp_idx (slice d' s e) /\
  tot' = (tot + tsize t)%nat /\ describes t (slice d' s e) (length o).

Lemma leaf_post d o tot s e : (s < e)%nat ->
  build_post s e (d, o, tot) (Leaf (seg_bounds d s e) (length o) (e - s)) (d, emit_leaf d s e o, S tot).
Proof.
  intros H. cbn. split; [apply rearr_refl|]. split; [|split; [lia|]].
  - unfold emit_leaf, slice. now rewrite map_map.
  - rewrite seg_bounds_slice, <- (slice_length d s e). constructor. now apply slice_nonempty.
Qed.

Lemma node_post s m e d d0 o tot c0 c1 st1 st2 dim :
  (s < m < e)%nat -> (e <= length d)%nat -> rearr s e d d0 ->
  build_post s m (d0, o, S tot) c0 st1 -> build_post m e st1 c1 st2 ->
  build_post s e (d, o, tot) (Node (union_bb (tbounds c0) (tbounds c1)) dim c0 c1) st2.
Proof.
  intros Hm He R0 H0 H1. destruct st1 as [[d1 o1] t1], st2 as [[d2 o2] t2]. cbn in *.
  destruct H0 as (R1&O1&T1&D1), H1 as (R2&O2&T2&D2).
  assert (Es : slice d2 s m = slice d1 s m).
  { apply slice_ext. intros i Hi. destruct R2 as (_&R2&_). apply R2. lia. }
  assert (Es2 : slice d2 s e = slice d1 s m ++ slice d2 m e) by (rewrite (slice_app d2 s m e) by lia; congruence).
  split; [|split; [|split]].
  - eapply rearr_trans; [exact R0|].
    eapply rearr_trans; [eapply rearr_widen; [| | |exact R1]; lia|eapply rearr_widen; [| | |exact R2]; lia].
  - rewrite O2, O1, Es2, map_app, app_assoc. reflexivity.
  - lia.
  - rewrite Es2. rewrite (describes_bounds _ _ _ D1), (describes_bounds _ _ _ D2), <- bounds_of_app.
    constructor; auto.
    rewrite O1, app_length, map_length in D2. exact D2.
Qed.

Lemma build_spec method mp : forall fuel s e st t st',
  (e <= length (fst (fst st)))%nat ->
  build fuel method mp s e st = Ok (t, st') -> build_post s e st t st'.
Proof.
  induction fuel as [|f IH]; intros s e [[d o] tot] t st' He H; [discriminate|].
  cbn [fst] in He. cbn [build] in H.
  destruct (Nat.ltb_spec s e) as [Hse|Hse]; cbn [negb] in H; [|discriminate].
  assert (REC : forall d0 mid dim, rearr s e d d0 -> (s <= mid <= e)%nat ->
    (if (mid =? e)%nat || (mid =? s)%nat then Err AssertionError
     else do (c0, st1) <- build f method mp s mid (d0, o, S tot);
          do (c1, st2) <- build f method mp mid e st1;
          Ok (Node (union_bb (tbounds c0) (tbounds c1)) dim c0 c1, st2)) = Ok (t, st') ->
    build_post s e (d, o, tot) t st').
  { intros d0 mid dim R0 Hmid HH.
    destruct (Nat.eqb_spec mid e); [discriminate|]. destruct (Nat.eqb_spec mid s); [discriminate|].
    cbn [orb] in HH.
    assert (L0 : length d0 = length d) by apply R0.
    destruct (build f method mp s mid (d0, o, S tot)) as [[c0 st1]|] eqn:B0; [|discriminate].
    cbn [bind] in HH.
    destruct (build f method mp mid e st1) as [[c1 st2]|] eqn:B1; [|discriminate].
    cbn [bind] in HH. injection HH as <- <-.
    apply IH in B0; [|cbn; lia]. 
    assert (L1 : length (fst (fst st1)) = length d).
    { destruct st1 as [[d1 o1] t1]. cbn in B0 |- *. destruct B0 as ((?&_)&_). lia. }
    apply IH in B1; [|lia].
    eapply node_post; eauto; lia. }
  destruct (Nat.eqb_spec (e - s) 1) as [E1|E1].
  { injection H as <- <-. now apply leaf_post. }
  destruct (eeqb _ _).
  { destruct (Nat.leb_spec (e - s) mp).
    - injection H as <- <-. now apply leaf_post.
    - apply REC in H; auto using rearr_refl. pose proof (half_between s e ltac:(lia)). lia. }
  destruct method.
  - destruct (emul _ _) as [pm| | |]; try discriminate.
    destruct (partition_mid d s e pm _) as [[d' mid]|] eqn:P; [|discriminate].
    cbn [bind] in H. unfold partition_mid in P.
    apply part_loop_spec with (s := s) (e := e) in P; try lia.
    destruct P as (R0&Hm&_). apply REC in H; auto. lia.
  - destruct (sah_split _ _ _ _ _ _ _) as [[d' [mid|]]|] eqn:P; [|discriminate|discriminate].
    cbn [bind] in H. unfold sah_split in P.
    destruct (Nat.leb_spec (e - s) 4).
    + assert (Hm : mid = ((s + e) / 2)%nat) by congruence.
      assert (Hd : d' = insertion_sort d s e (maximum_extent (seg_centroids d s e))) by congruence.
      pose proof (half_between s e ltac:(lia)) as HB.
      eapply REC; [| |exact H]; [|lia].
      rewrite Hd. apply insertion_sort_rearr; lia.
    + destruct (fill_buckets _ _ _ _ _) as [bs|]; [|discriminate]. cbn [bind] in P.
      destruct (_ || _); [|discriminate].
      destruct (bucket_partition _ _ _ _ _ _) as [[d1 m1]|] eqn:Q; [|discriminate].
      cbn [bind] in P. injection P as <- <-.
      unfold bucket_partition in Q.
      apply part_loop_spec with (s := s) (e := e) in Q; try lia.
      destruct Q as (R0&Hm&_). apply REC in H; auto.
      destruct (Nat.eqb_spec m1 s); [lia|]. destruct (Nat.eqb_spec m1 e); lia.
Qed.

(** SAH with leaves of at most four primitives never fails. *)
Lemma build_sah_total mp : (mp <= 4)%nat -> forall fuel s e st,
  (s < e)%nat -> (e <= length (fst (fst st)))%nat -> (e - s <= fuel)%nat ->
  is_ok (build fuel SAH mp s e st) = true.
Proof.
  intros Hmp. induction fuel as [|f IH]; intros s e [[d o] tot] Hse He Hf; [lia|].
  cbn [fst] in He. cbn [build].
  destruct (Nat.ltb_spec s e) as [_|]; [|lia]. cbn [negb].
  assert (REC : forall d0 mid dim, length d0 = length d -> (s < mid < e)%nat ->
    is_ok (if (mid =? e)%nat || (mid =? s)%nat then Err AssertionError
     else do (c0, st1) <- build f SAH mp s mid (d0, o, S tot);
          do (c1, st2) <- build f SAH mp mid e st1;
          Ok (Node (union_bb (tbounds c0) (tbounds c1)) dim c0 c1, st2)) = true).
  { intros d0 mid dim L0 Hmid.
    destruct (Nat.eqb_spec mid e); [lia|]. destruct (Nat.eqb_spec mid s); [lia|]. cbn [orb].
    assert (A : is_ok (build f SAH mp s mid (d0, o, S tot)) = true) by (apply IH; cbn; lia).
    destruct (build f SAH mp s mid (d0, o, S tot)) as [[c0 st1]|] eqn:B0; [|discriminate].
    cbn [bind]. apply build_spec in B0; [|cbn; lia].
    assert (B : is_ok (build f SAH mp mid e st1) = true).
    { destruct st1 as [[d1 o1] t1]. cbn in B0. destruct B0 as ((L1&_)&_). apply IH; cbn; lia. }
    destruct (build f SAH mp mid e st1) as [[c1 st2]|]; [reflexivity|discriminate]. }
  destruct (Nat.eqb_spec (e - s) 1) as [E1|E1]; [reflexivity|].
  rewrite seg_centroids_slice.
  destruct (centroids_finite (slice d s e) (slice_nonempty d s e Hse)) as (lo&hi&->&HC).
  set (dim := maximum_extent (fbox lo hi)).
  assert (Hdim : (dim < 3)%nat) by apply maximum_extent_fbox.
  unfold fbox at 1 2; cbn [bmin bmax]. rewrite !vnth_vmap_Fin. cbn [eeqb].
  destruct (Reqb (vnth hi dim) (vnth lo dim)) eqn:Eq; Rb.
  { destruct (Nat.leb_spec (e - s) mp); [reflexivity|]. apply REC; auto. apply half_between. lia. }
  destruct (HC dim Hdim) as (Hin&(pm&Hpm&Epm)&_).
  assert (Hlt : vnth lo dim < vnth hi dim) by (pose proof (Hin pm Hpm); lra).
  unfold sah_split. destruct (Nat.leb_spec (e - s) 4).
  { cbn [bind]. apply REC; [|apply half_between; lia].
    apply (insertion_sort_rearr d s e dim); lia. }
  assert (Hidx : forall i, (s <= i < e)%nat ->
     vnth lo dim <= vnth (bp_centroid (aget d i)) dim <= vnth hi dim).
  { intros i Hi. apply Hin. apply in_slice. eauto. }
  pose proof (fill_buckets_ok d lo hi dim Hlt (seq s (e - s)) (repeat (0%nat, bbox_empty) 12)) as FB.
  destruct (fill_buckets _ _ _ _ _) as [bs|]; [|discriminate FB; intros i Hi; apply in_seq in Hi; apply Hidx; lia].
  clear FB. cbn [bind].
  destruct (Nat.ltb_spec mp (e - s)); [|lia]. cbn [orb].
  set (mi := argmin _).
  assert (PK : is_ok (bucket_partition d s e mi dim (fbox lo hi)) = true).
  { unfold bucket_partition. apply part_loop_ok with (s := s) (e := e); try lia.
    intros j Hj. destruct (bucket_of_ok lo hi dim (aget d j) Hlt (Hidx j Hj)) as (b&->&_). reflexivity. }
  destruct (bucket_partition d s e mi dim (fbox lo hi)) as [[d1 m1]|] eqn:Q; [|discriminate].
  cbn [bind]. unfold bucket_partition in Q.
  apply part_loop_spec with (s := s) (e := e) in Q; try lia.
  destruct Q as ((L1&_)&Hm&_). apply REC; auto.
  destruct (Nat.eqb_spec m1 s); [lia|]. destruct (Nat.eqb_spec m1 e); lia.
Qed.

(** ** top level *)
Lemma build_data_length bs : length (build_data bs) = length bs.
Proof. unfold build_data. rewrite map_length, combine_length, seq_length. lia. Qed.
Lemma aget_build_data bs i x : (i < length bs)%nat ->
  aget (build_data bs) i = mkBP i (fst (nth i bs x)) (snd (nth i bs x)).
Proof.
  intros H. unfold aget, build_data.
  set (g := fun '(i, (lo, hi)) => mkBP i lo hi).
  rewrite nth_indep with (d' := g (0%nat, x)).
  2:{ rewrite map_length, combine_length, seq_length; lia. }
  rewrite map_nth. rewrite combine_nth by (rewrite seq_length; auto).
  rewrite seq_nth by auto. unfold g. destruct (nth i bs x). reflexivity.
Qed.
Lemma slice_all d : slice d 0 (length d) = d.
Proof.
  unfold slice. rewrite Nat.sub_0_r. apply (nth_ext _ _ dflt dflt).
  - now rewrite map_length, seq_length.
  - intros n Hn. rewrite map_length, seq_length in Hn.
    rewrite nth_indep with (d' := aget d 0%nat) by (rewrite map_length, seq_length; auto).
    rewrite map_nth with (d := 0%nat). now rewrite seq_nth.
Qed.
Lemma build_data_idx bs : map bp_idx (build_data bs) = seq 0 (length bs).
Proof.
  unfold build_data. rewrite map_map.
  erewrite map_ext with (g := fst); [|intros [i [lo hi]]; reflexivity].
  generalize (seq_length (length bs) 0). generalize (seq 0 (length bs)) as l.
  clear. revert bs. intros bs l; revert bs. induction l; intros [|b bs] H; cbn in *; try lia; auto.
  f_equal. apply IHl. lia.
Qed.

Lemma bvh_build_spec method mp bs t ordered total :
  bvh_build method mp bs = Ok (t, ordered, total) ->
  exists ps, Permutation ps (build_data bs) /\ ordered = map bp_idx ps /\
    Permutation ordered (seq 0 (length bs)) /\
    total = tsize t /\ describes t ps 0.
Proof.
  unfold bvh_build. intros H.
  destruct (build _ _ _ _ _ _) as [[t' [[d' o'] tot']]|] eqn:B; [|discriminate].
  cbn [bind] in H. injection H as <- <- <-.
  apply build_spec in B; [|cbn; rewrite build_data_length; lia].
  cbn in B. destruct B as ((L&_&P)&O&T&D).
  exists (slice d' 0 (length bs)).
  assert (P' : Permutation (slice d' 0 (length bs)) (build_data bs)).
  { apply Permutation_sym. rewrite <- (slice_all (build_data bs)) at 1. now rewrite build_data_length. }
  split; auto. split; auto. split; [|auto].
  rewrite O, <- build_data_idx. now apply Permutation_map.
Qed.

Lemma bvh_build_total mp bs : (mp <= 4)%nat -> bs <> [] -> is_ok (bvh_build SAH mp bs) = true.
Proof.
  intros Hmp Hne. unfold bvh_build.
  assert (0 < length bs)%nat by (destruct bs; cbn; [congruence|lia]).
  pose proof (build_sah_total mp Hmp (length bs) 0 (length bs) (build_data bs, [], 0%nat)) as Q.
  specialize (Q H). cbn [fst] in Q. rewrite build_data_length in Q.
  specialize (Q ltac:(lia) ltac:(lia)).
  destruct (build _ _ _ _ _ _) as [[t' [[d' o'] tot']]|]; [reflexivity|discriminate].
Qed.

(** ** layout *)
Lemma flatten_spec : forall t nodes off, (off + tsize t <= length nodes)%nat ->
  exists nodes', flatten t nodes off = Ok (nodes', (off + tsize t)%nat) /\
    length nodes' = length nodes /\ laid_out nodes' off t /\
    (forall j, (j < off \/ off + tsize t <= j)%nat -> nth_error nodes' j = nth_error nodes j).
Proof.
  assert (EXT : forall t nodes nodes' off,
     (forall j, (off <= j < off + tsize t)%nat -> nth_error nodes' j = nth_error nodes j) ->
     laid_out nodes off t -> laid_out nodes' off t).
  { induction t as [b f n|b ax c0 IH0 c1 IH1]; intros nodes nodes' off H L; cbn in *.
    - rewrite H by lia. auto.
    - destruct L as (A&B&C). split; [rewrite H by lia; auto|]. split.
      + eapply IH0; [|exact B]. intros; apply H; lia.
      + eapply IH1; [|exact C]. intros; apply H; lia. }
  induction t as [b f n|b ax c0 IH0 c1 IH1]; intros nodes off Hl; cbn [flatten tsize] in *.
  - destruct (Nat.ltb_spec off (length nodes)); [|lia].
    eexists. replace (off + 1)%nat with (S off) by lia. split; [reflexivity|].
    split; [apply aset_length|]. split.
    + cbn. rewrite nth_error_aset, Nat.eqb_refl. apply Nat.ltb_lt in H. now rewrite H.
    + intros j Hj. rewrite nth_error_aset. destruct (Nat.eqb_spec j off); [lia|auto].
  - destruct (Nat.ltb_spec off (length nodes)); [|lia].
    destruct (IH0 (aset nodes off (mkL b 0 0 ax)) (S off)) as (n1&F1&L1&P1&K1).
    { rewrite aset_length; lia. }
    rewrite F1. cbn [bind]. rewrite aset_length in L1.
    destruct (IH1 n1 (S off + tsize c0)%nat) as (n2&F2&L2&P2&K2); [lia|].
    rewrite F2. cbn [bind].
    eexists. split; [f_equal; f_equal; lia|]. split; [rewrite aset_length; lia|].
    split.
    + cbn [laid_out]. split.
      * rewrite nth_error_aset, Nat.eqb_refl. assert (off <? length n2 = true)%nat as -> by (apply Nat.ltb_lt; lia).
        reflexivity.
      * split.
        -- eapply EXT; [|exact P1]. intros j Hj. rewrite nth_error_aset.
           destruct (Nat.eqb_spec j off); [lia|]. apply K2. lia.
        -- eapply EXT; [|exact P2]. intros j Hj. rewrite nth_error_aset.
           destruct (Nat.eqb_spec j off); [lia|]. reflexivity.
    + intros j Hj. rewrite nth_error_aset. destruct (Nat.eqb_spec j off); [lia|].
      rewrite K2 by lia. rewrite K1 by lia. rewrite nth_error_aset.
      destruct (Nat.eqb_spec j off); [lia|auto].
Qed.

Lemma bvh_flatten_spec t : exists nodes, bvh_flatten t (tsize t) = Ok nodes /\
  length nodes = tsize t /\ laid_out nodes 0 t.
Proof.
  unfold bvh_flatten.
  destruct (flatten_spec t (repeat lnode0 (tsize t)) 0) as (nodes&F&L&P&_); [rewrite repeat_length; lia|].
  rewrite F. cbn. exists nodes. rewrite repeat_length in L. auto.
Qed.
