(** Proofs about the exhaustive aggregate (C33). *)
From Coq Require Import Reals List Bool ZArith Arith Lia Lra.
From Verif Require Import Base M_Geometry S_Geometry P_Geometry M_BVH S_BVH P_BVH P_BVHTrav M_Aggregate S_Aggregate.
Import ListNotations.
Open Scope R_scope.

Lemma agg_bounds_build bounds : agg_bounds bounds = bounds_of (build_data bounds).
Proof.
  unfold agg_bounds, bounds_of, accumulate.
  rewrite <- fold_left_map with (g := fun p => GB (bp_bounds p)) (f := add_geom).
  assert (G : forall k b, fold_left (fun b p => union_bb b (fbox (fst p) (snd p))) bounds b =
    fold_left (fun a x => add_geom a (GB (bp_bounds x)))
      (map (fun '(i, (lo, hi)) => mkBP i lo hi) (combine (seq k (length bounds)) bounds)) b).
  { induction bounds as [|[l h] bs IH]; intros k b; [reflexivity|]. cbn. apply IH. }
  unfold build_data. now rewrite (G 0%nat).
Qed.

Lemma agg_bounds_finite bounds : bounds <> [] ->
  agg_bounds bounds = fbox (agg_lo bounds) (agg_hi bounds) /\
  (forall l h, In (l, h) bounds -> vle (agg_lo bounds) l /\ vle h (agg_hi bounds)).
Proof.
  intros H. unfold agg_lo, agg_hi. rewrite agg_bounds_build.
  destruct (bounds_of_finite (build_data bounds)) as (lo&hi&E&B&_).
  { intro E. apply H. apply (f_equal (@length _)) in E. rewrite build_data_length in E.
    destruct bounds; [reflexivity|discriminate]. }
  rewrite E. assert (F : fbox (vmap corner (bmin (fbox lo hi))) (vmap corner (bmax (fbox lo hi))) = fbox lo hi).
  { destruct lo, hi; reflexivity. }
  rewrite F. split; [reflexivity|]. intros l h Hin.
  apply In_nth with (d := (vzero, vzero)) in Hin. destruct Hin as (i&Hi&En).
  destruct (B (aget (build_data bounds) i)) as [B1 B2].
  { unfold aget. apply nth_In. now rewrite build_data_length. }
  rewrite (aget_build_data _ _ (vzero, vzero)) in B1, B2 by exact Hi. rewrite En in B1, B2. cbn in B1, B2.
  destruct lo, hi; cbn in *. now split.
Qed.

Lemma between_agg bounds i p : (i < length bounds)%nat ->
  between (fst (nth i bounds (vzero, vzero))) p (snd (nth i bounds (vzero, vzero))) ->
  between (agg_lo bounds) p (agg_hi bounds).
Proof.
  intros Hi [A B]. destruct (agg_bounds_finite bounds) as [_ F].
  { intro E; subst; cbn in Hi; lia. }
  destruct (F (fst (nth i bounds (vzero, vzero))) (snd (nth i bounds (vzero, vzero)))) as [C D].
  { rewrite <- surjective_pairing. now apply nth_In. }
  unfold between, vle in *. lra.
Qed.

(** Loop invariant of SimpleAggregate.intersect after primitives 0..k-1. *)
Section Simple.
Context (surf : nat -> R -> Prop) (pi : prim_isect) (r0 : ray) (t0 t1 : E) (N : nat).
Context (Hc : nearest_contract surf pi r0).
Context (Hin : forall i t, (i < N)%nat -> surf i t -> ele (rmint r0) (Fin t) -> ele (Fin t) (rmaxt r0) ->
   ele t0 (Fin t) /\ ele (Fin t) t1).
Context (Hm : notnan (rmaxt r0)).
Context (H01 : notnan t0 /\ notnan t1).

Definition sinv (k : nat) (st : sstate) : Prop :=
  (ss_rec st = None /\ st = mkSS r0 t0 t1 PInf false None /\ forall j, (j < k)%nat -> ~ meets surf r0 j) \/
  (exists f tf tc, (f < k)%nat /\ st = mkSS (ray_set_maxt r0 (Fin tc)) (Fin tf) (Fin tc) (Fin tf) true (Some f) /\
     meets surf r0 f /\ (forall j, (j < f)%nat -> ~ meets surf r0 j) /\
     surf f tf /\ tc <= tf /\ ele (Fin tf) (rmaxt r0) /\ nearest_param surf k r0 tc).

Lemma sinv_step k st : (k < N)%nat -> sinv k st -> sinv (S k) (simple_step pi st k).
Proof.
  intros Hk [(_&->&HN)|(f&tf&tc&Hf&->&Mf&Hfirst&Sf&Hle&Hmx&(Hex&Hlo&Hhi&Hmin))].
  - unfold simple_step. cbn [ss_ray ss_t0 ss_t1 ss_mint ss_any ss_rec].
    assert (ER : ray_set_maxt r0 (rmaxt r0) = r0) by (destruct r0; reflexivity).
    pose proof (Hc k (rmaxt r0) Hm) as C. cbn zeta in C. rewrite ER in C.
    destruct (pi k r0) as [t|].
    + destruct C as (C1&C2&C3&C4). right. exists k, t, t.
      destruct (Hin k t Hk C1 C2 C3) as [I1 I2].
      cbn [rmaxt ray_set_maxt].
      assert (E0 : emax t0 (Fin t) = Fin t).
      { unfold emax. destruct (eltb t0 (Fin t)) eqn:Q; [reflexivity|].
        apply eltb_false_ele in Q; [|now destruct H01|discriminate]. now apply ele_antisym. }
      assert (E1 : emin t1 (Fin t) = Fin t).
      { unfold emin. destruct (eltb (Fin t) t1) eqn:Q; [reflexivity|].
        apply eltb_false_ele in Q; [|discriminate|now destruct H01]. now apply ele_antisym. }
      rewrite E0, E1. cbn [eltb].
      assert (Rltb t t = false) by (apply Rltb_false; lra). rewrite H.
      split; [lia|]. split; [reflexivity|].
      split; [exists t; auto|]. split; [exact HN|]. split; [exact C1|]. split; [lra|]. split; [exact C3|].
      repeat split; auto; [exists k; auto|].
      intros j t' Hj Sj Lj. destruct (Nat.eq_dec j k) as [->|]; [now apply C4|].
      destruct (ele_total (Fin t') (rmaxt r0)) as [Q|Q]; [discriminate|exact Hm| |].
      * exfalso. apply (HN j); [lia|]. exists t'; auto.
      * apply ele_Fin. exact (ele_trans _ _ _ C3 Q).
    + left. split; [reflexivity|]. split; [reflexivity|]. intros j Hj (t&S1&L1&L2).
      destruct (Nat.eq_dec j k) as [->|]; [now apply (C t)|apply (HN j); [lia|exists t; auto]].
  - unfold simple_step. cbn [ss_ray ss_t0 ss_t1 ss_mint ss_any ss_rec].
    pose proof (Hc k (Fin tc) ltac:(discriminate)) as C. cbn zeta in C.
    destruct (pi k (ray_set_maxt r0 (Fin tc))) as [t|].
    + destruct C as (C1&C2&C3&C4). cbn [rmint ray_set_maxt] in C2. apply ele_Fin in C3. cbn [rmaxt ray_set_maxt].
      rewrite emax_Fin, emin_Fin. rewrite Rmax_left, Rmin_right by lra.
      right. exists f, tf, t.
      assert (NP : nearest_param surf (S k) r0 t).
      { repeat split; auto; [exists k; auto|eapply ele_trans; [|exact Hhi]; now apply ele_Fin|].
        intros j t' Hj Sj Lj. destruct (Nat.eq_dec j k) as [->|]; [now apply C4|].
        assert (tc <= t') by (apply (Hmin j); auto; lia). lra. }
      split; [lia|]. split; [|split; [exact Mf|]; split; [exact Hfirst|]; split; [exact Sf|]; split; [lra|]; split; [exact Hmx|exact NP]].
      cbn [eltb]. destruct (Rltb t tf) eqn:Q; Rb.
      * reflexivity.
      * assert (t = tf) by lra. subst t. assert (tc = tf) by lra. subst tc.
        reflexivity.
    + right. exists f, tf, tc. split; [lia|]. split; [reflexivity|]. repeat split; auto.
      { destruct Hex as (i&Hi&Si). exists i; auto. }
      intros j t' Hj Sj Lj. destruct (Nat.eq_dec j k) as [->|].
      * destruct (Rle_lt_dec tc t') as [|Q]; [assumption|]. exfalso. apply (C t'); auto.
        apply ele_Fin; lra.
      * apply (Hmin j); auto. lia.
Qed.

Lemma sinv_all k : (k <= N)%nat ->
  sinv k (fold_left (simple_step pi) (seq 0 k) (mkSS r0 t0 t1 PInf false None)).
Proof.
  induction k as [|k IH]; intros Hk.
  - left. cbn. repeat split; auto. intros; lia.
  - rewrite seq_S, fold_left_app. cbn [fold_left]. apply sinv_step; [lia|]. apply IH; lia.
Qed.
End Simple.

Theorem simple_main bounds surf pi r0 :
  Forall (fun b => vle (fst b) (snd b)) bounds -> ray_face_ok (agg_lo bounds) (agg_hi bounds) r0 ->
  notnan (rmint r0) -> notnan (rmaxt r0) ->
  within_bounds surf (fun i => nth i bounds (vzero, vzero)) r0 (length bounds) ->
  nearest_contract surf pi r0 ->
  forall any r' rec, simple_intersect pi bounds r0 = (any, r', rec) ->
    (any = true <-> exists i, (i < length bounds)%nat /\ meets surf r0 i) /\
    (any = false -> r' = r0 /\ rec = None) /\
    (any = true -> exists t, r' = ray_set_maxt r0 (Fin t) /\ nearest_param surf (length bounds) r0 t) /\
    (forall f, rec = Some f <-> ((f < length bounds)%nat /\ meets surf r0 f /\
                                forall j, (j < f)%nat -> ~ meets surf r0 j)).
Proof.
  intros HV HF HN1 HN2 HW HC any r' rec H.
  destruct bounds as [|b0 bs].
  { cbn in H. injection H as <- <- <-. cbn. split; [split; [discriminate|intros (i&Hi&_); lia]|].
    split; [auto|]. split; [discriminate|]. intros f; split; [discriminate|intros (Hf&_); lia]. }
  set (bounds := b0 :: bs) in *.
  assert (HVV : vle (agg_lo bounds) (agg_hi bounds)).
  { destruct (agg_bounds_finite bounds) as [_ F]; [discriminate|].
    destruct (F (fst b0) (snd b0)) as [A B]; [unfold bounds; left; now destruct b0|].
    apply Forall_inv in HV. unfold vle in *. lra. }
  pose proof (bbox_intersect_p_interval _ _ r0 HVV HF HN1 HN2) as I.
  unfold simple_intersect in H. fold bounds in H.
  assert (H' : match bbox_intersect_p (agg_lo bounds) (agg_hi bounds) r0 with
         | None => (false, r0, None)
         | Some (t0, t1) =>
             let st := fold_left (simple_step pi) (seq 0 (length bounds)) (mkSS r0 t0 t1 PInf false None) in
             (ss_any st, ss_ray st, ss_rec st) end = (any, r', rec)) by exact H.
  clear H. rename H' into H. clearbody bounds. clear b0 bs.
  destruct (bbox_intersect_p (agg_lo bounds) (agg_hi bounds) r0) as [[t0 t1]|].
  - destruct I as (N0&N1&_&_&_&_&I).
    assert (S : sinv surf r0 t0 t1 (length bounds)
       (fold_left (simple_step pi) (seq 0 (length bounds)) (mkSS r0 t0 t1 PInf false None))).
    { apply sinv_all with (N := length bounds); auto.
      intros i t Hi Si L1 L2. apply I. split; [now split|].
      eapply between_agg; [exact Hi|]. now apply HW. }
    cbv zeta in H.
    destruct S as [(_&E&HNo)|(f&tf&tc&Hf&E&Mf&Hfirst&Sf&Hle&Hmx&NP)]; rewrite E in H; cbn in H;
      injection H as <- <- <-.
    + split; [split; [discriminate|intros (i&Hi&M); exfalso; now apply (HNo i)]|].
      split; [auto|]. split; [discriminate|].
      intros f; split; [discriminate|]. intros (Hf&M&_). exfalso; now apply (HNo f).
    + split; [split; [intros _; exists f; auto|auto]|]. split; [discriminate|].
      split; [intros _; exists tc; auto|].
      intros g. split; [intros [= <-]; auto|]. intros (Hg&Mg&Fg). f_equal.
      destruct (Nat.lt_trichotomy f g) as [Q|[Q|Q]]; auto.
      * exfalso. now apply (Fg f).
      * exfalso. now apply (Hfirst g).
  - injection H as <- <- <-.
    assert (HNo : forall i, (i < length bounds)%nat -> ~ meets surf r0 i).
    { intros i Hi (t&Si&L1&L2). apply (I t). split; [now split|]. eapply between_agg; [exact Hi|]. now apply HW. }
    split; [split; [discriminate|intros (i&Hi&M); exfalso; now apply (HNo i)]|].
    split; [auto|]. split; [discriminate|].
    intros f; split; [discriminate|]. intros (Hf&M&_). exfalso; now apply (HNo f).
Qed.

Theorem simple_p_main bounds surf pp r0 :
  Forall (fun b => vle (fst b) (snd b)) bounds -> ray_face_ok (agg_lo bounds) (agg_hi bounds) r0 ->
  notnan (rmint r0) -> notnan (rmaxt r0) ->
  within_bounds surf (fun i => nth i bounds (vzero, vzero)) r0 (length bounds) ->
  any_contract surf pp r0 ->
  (simple_intersect_p pp bounds r0 = true <-> exists i, (i < length bounds)%nat /\ meets surf r0 i).
Proof.
  intros HV HF HN1 HN2 HW HC.
  destruct bounds as [|b0 bs].
  { cbn. split; [discriminate|intros (i&Hi&_); cbn in Hi; lia]. }
  set (bounds := b0 :: bs) in *.
  assert (HVV : vle (agg_lo bounds) (agg_hi bounds)).
  { destruct (agg_bounds_finite bounds) as [_ F]; [discriminate|].
    destruct (F (fst b0) (snd b0)) as [A B]; [unfold bounds; left; now destruct b0|].
    apply Forall_inv in HV. unfold vle in *. lra. }
  pose proof (bbox_intersect_p_interval _ _ r0 HVV HF HN1 HN2) as I.
  change (simple_intersect_p pp bounds r0) with
    (match bbox_intersect_p (agg_lo bounds) (agg_hi bounds) r0 with
     | None => false | Some _ => existsb (fun i => pp i r0) (seq 0 (length bounds)) end).
  clearbody bounds. clear b0 bs.
  destruct (bbox_intersect_p (agg_lo bounds) (agg_hi bounds) r0) as [[t0 t1]|].
  - rewrite existsb_exists. split.
    + intros (i&Hi&P). apply in_seq in Hi. exists i. split; [lia|]. now apply HC.
    + intros (i&Hi&M). exists i. split; [apply in_seq; lia|]. now apply HC.
  - split; [discriminate|]. intros (i&Hi&(t&Si&L1&L2)). exfalso. apply (I t). split; [now split|].
    eapply between_agg; [exact Hi|]. now apply HW.
Qed.

(** Primitives met by the ray in at most one point, at parameter [f i]: an instance of the
    contracts, used for the concrete cases. *)
Definition pts_surf (f : nat -> option R) (i : nat) (t : R) : Prop := f i = Some t.
Definition pts_pi (f : nat -> option R) : prim_isect := fun i r =>
  match f i with
  | Some t => if eleb (rmint r) (Fin t) && eleb (Fin t) (rmaxt r) then Some t else None
  | None => None
  end.
Lemma pts_contract f r0 : nearest_contract (pts_surf f) (pts_pi f) r0 /\
  any_contract (pts_surf f) (fun i r => match pts_pi f i r with Some _ => true | None => false end) r0.
Proof.
  unfold pts_surf, pts_pi. split.
  - intros i m _. cbv zeta. cbn [rmint rmaxt ray_set_maxt]. destruct (f i) as [t|].
    + destruct (eleb (rmint r0) (Fin t)) eqn:A; cbn [andb]; [destruct (eleb (Fin t) m) eqn:B|].
      * repeat split; auto. intros t' [= <-] _. lra.
      * intros t' [= <-] _ H. unfold ele in H. congruence.
      * intros t' [= <-] H _. unfold ele in H. congruence.
    + intros t' H. discriminate.
  - intros i. destruct (f i) as [t|].
    + destruct (eleb (rmint r0) (Fin t)) eqn:A; cbn [andb]; [destruct (eleb (Fin t) (rmaxt r0)) eqn:B|].
      * split; auto. intros _. exists t; auto.
      * split; [discriminate|]. intros (t'&[= <-]&_&H). unfold ele in H. congruence.
      * split; [discriminate|]. intros (t'&[= <-]&H&_). unfold ele in H. congruence.
    + split; [discriminate|]. intros (t'&H&_). discriminate.
Qed.

(** Two parallel unit squares, the farther one first in the list. *)
Definition two_bounds : list (vec * vec) := [(mkV 2 0 0, mkV 2 1 1); (mkV 1 0 0, mkV 1 1 1)].
Definition two_f (i : nat) : option R := match i with O => Some 2 | S O => Some 1 | _ => None end.
Definition two_ray : ray := mkRay (mkV 0 (/2) (/2)) (mkV 1 0 0) (mkV false false false) (Fin 0) PInf 0%Z 0.
Lemma two_ok : Forall (fun b => vle (fst b) (snd b)) two_bounds /\
  ray_face_ok (agg_lo two_bounds) (agg_hi two_bounds) two_ray /\ notnan (rmint two_ray) /\ notnan (rmaxt two_ray) /\
  within_bounds (pts_surf two_f) (fun i => nth i two_bounds (vzero, vzero)) two_ray 2.
Proof.
  split; [unfold two_bounds, vle; repeat constructor; cbn; lra|].
  split; [unfold ray_face_ok, slab_ok; cbn; repeat split; intros; discriminate|].
  split; [discriminate|]. split; [discriminate|].
  intros i t Hi H. destruct i as [|[|]]; [| |lia]; cbn in H; injection H as <-; unfold between, vle; cbn; lra.
Qed.
Theorem simple_wrong_record :
  simple_intersect (pts_pi two_f) two_bounds two_ray = (true, ray_set_maxt two_ray (Fin 1), Some 0%nat) /\
  nearest_param (pts_surf two_f) 2 two_ray 1 /\ ~ pts_surf two_f 0 1.
Proof.
  destruct two_ok as (A&B&C&D&E). destruct (pts_contract two_f two_ray) as [F _].
  destruct (simple_intersect (pts_pi two_f) two_bounds two_ray) as [[any r'] rec] eqn:Q.
  destruct (simple_main two_bounds _ _ two_ray A B C D E F any r' rec Q) as (S1&_&S3&S4).
  assert (M0 : meets (pts_surf two_f) two_ray 0).
  { exists 2. split; [reflexivity|]. split; [apply ele_Fin; lra|reflexivity]. }
  assert (any = true) by (apply S1; exists 0%nat; split; [cbn; lia|exact M0]). subst any.
  assert (rec = Some 0%nat). { apply S4. split; [cbn; lia|]. split; [exact M0|]. intros; lia. } subst rec.
  assert (N1 : nearest_param (pts_surf two_f) 2 two_ray 1).
  { split; [exists 1%nat; split; [lia|reflexivity]|]. split; [apply ele_Fin; lra|]. split; [reflexivity|].
    intros j t' Hj H _. destruct j as [|[|]]; [| |lia]; cbn in H; injection H as <-; lra. }
  destruct (S3 eq_refl) as (t&->&NP).
  assert (t = 1).
  { destruct NP as ((i&Hi&Si)&L&_&Min). destruct N1 as ((i'&Hi'&Si')&L'&_&Min').
    assert (t <= 1) by (apply (Min 1%nat); [cbn; lia|reflexivity|exact L']).
    assert (1 <= t) by (apply (Min' i); auto). lra. }
  subst t. split; [reflexivity|]. split; [exact N1|]. unfold pts_surf; cbn. intros H; injection H; lra.
Qed.
