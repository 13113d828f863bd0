(** Witnesses for the BVH refutations, and the end-to-end statements over original indices. *)
From Coq Require Import Reals Lra Lia List Bool ZArith Arith Permutation Psatz.
From Verif Require Import Base M_Geometry S_Geometry P_Geometry M_BVH S_BVH P_BVH P_BVHTrav.
Import ListNotations.
Open Scope R_scope.

(** Decide comparisons of closed real terms appearing in the goal. *)
Ltac rdec1 :=
  match goal with
  | |- context [Rltb ?a ?b] =>
      first [ replace (Rltb a b) with true by (symmetry; apply Rltb_true; lra)
            | replace (Rltb a b) with false by (symmetry; apply Rltb_false; lra) ]
  | |- context [Rleb ?a ?b] =>
      first [ replace (Rleb a b) with true by (symmetry; apply Rleb_true; lra)
            | replace (Rleb a b) with false by (symmetry; apply Rleb_false; lra) ]
  | |- context [Reqb ?a ?b] =>
      first [ replace (Reqb a b) with true by (symmetry; apply Reqb_true; lra)
            | replace (Reqb a b) with false by (symmetry; apply Reqb_false; lra) ]
  end.
Ltac rdec := repeat (rdec1; cbn).

Lemma middle_two_fails mp : (mp <= 1)%nat \/ True ->
  bvh_build MIDDLE mp [(mkV 1 0 0, mkV 1 0 0); (mkV 0 0 0, mkV 0 0 0)] = Err AssertionError.
Proof.
  intros _. unfold bvh_build. cbn. unfold seg_centroids, bp_centroid, union_pt, maximum_extent, emin, emax; cbn.
  rdec. unfold eeqb. rdec. reflexivity.
Qed.

(** five collinear points, at most five per leaf: the all-NaN costs select the broken leaf branch *)
Definition pt (x : R) : vec * vec := (mkV x 0 0, mkV x 0 0).
Definition five := map pt [0; 1; 2; 3; 4].

Lemma bounds_of_slice_data d s e : seg_bounds d s e = bounds_of (slice d s e).
Proof.
  unfold seg_bounds, bounds_of, slice, accumulate. rewrite map_map.
  generalize (seq s (e - s)) as l. generalize bbox_empty as b.
  intros b l; revert b. induction l; intros b; cbn; auto.
Qed.

Lemma bucket_of_val cb dim p z : (0 <= z < 12)%Z ->
  eint (emul (Fin (IZR n_buckets))
    (ediv (esub (Fin (vnth (bp_centroid p) dim)) (vnth (bmin cb) dim))
          (esub (vnth (bmax cb) dim) (vnth (bmin cb) dim)))) = Ok z ->
  bucket_of cb dim p = Ok (Z.to_nat z).
Proof.
  intros Hz H. unfold bucket_of. rewrite H. cbn [bind].
  destruct (Z.eqb_spec z n_buckets) as [E|E]; [unfold n_buckets in E; lia|].
  assert ((0 <=? z)%Z && (z <? n_buckets)%Z = true) as ->; auto.
  unfold n_buckets. apply andb_true_iff. split; [apply Z.leb_le|apply Z.ltb_lt]; lia.
Qed.

Definition flat (b : box) : Prop := exists a c, b = fbox (mkV a 0 0) (mkV c 0 0).
Lemma empty_union_flat b : flat b -> flat (union_bb bbox_empty b).
Proof. intros (a&c&->). exists a, c. reflexivity. Qed.
Lemma flat_union_empty b : flat b -> flat (union_bb b bbox_empty).
Proof. intros (a&c&->). exists a, c. reflexivity. Qed.
Lemma flat_union b b' : flat b -> flat b' -> flat (union_bb b b').
Proof.
  intros (a&c&->) (a'&c'&->). exists (Rmin a a'), (Rmax c c').
  unfold union_bb, fbox, vmap, vmap2. cbn [vx vy vz bmin bmax].
  rewrite !emin_Fin, !emax_Fin. rewrite (Rmin_left 0 0), (Rmax_left 0 0) by lra. reflexivity.
Qed.
Lemma empty_union_empty : union_bb bbox_empty bbox_empty = bbox_empty.
Proof. reflexivity. Qed.
Lemma flat_area b : flat b -> surface_area b = Fin 0.
Proof.
  intros (a&c&->). unfold surface_area, diag, fbox; cbn. f_equal. ring.
Qed.

Lemma argmin_nan l : argmin (NaN :: l) = 0%nat.
Proof. destruct l; reflexivity. Qed.

Lemma sah_five_split mp : (5 <= mp)%nat ->
  sah_split mp (build_data five) 0 5 0 (fbox (mkV 0 0 0) (mkV 4 0 0)) (fbox (mkV 0 0 0) (mkV 4 0 0))
  = Ok (build_data five, None).
Proof.
  intros Hmp. unfold sah_split. change (5 - 0 <=? 4)%nat with false. cbn iota.
  set (cb := fbox (mkV 0 0 0) (mkV 4 0 0)). set (d := build_data five).
  assert (CX : forall k, (k < 5)%nat -> vx (bp_centroid (aget d k)) = INR k).
  { intros k Hk. do 5 (destruct k as [|k]; [cbn; lra|]). lia. }
  assert (B : forall k z, (k < 5)%nat -> (0 <= z < 12)%Z -> IZR z <= 3 * INR k < IZR z + 1 ->
     bucket_of cb 0 (aget d k) = Ok (Z.to_nat z)).
  { intros k z Hk Hz H. apply bucket_of_val; auto. unfold cb; cbn [vnth fbox bmax bmin vmap vx].
    unfold esub, eopp, eadd, ediv, edivz. rdec1. cbn [emul eint]. f_equal.
    rewrite CX by auto.
    replace (IZR n_buckets * ((INR k + - 0) / (4 + - 0))) with (3 * INR k) by (unfold n_buckets; field).
    rewrite Ztrunc_nonneg by (pose proof (pos_INR k); lra). apply Zfloor_unique. lra. }
  assert (B4 : bucket_of cb 0 (aget d 4) = Ok 11%nat).
  { unfold bucket_of, cb; cbn [vnth fbox bmax bmin vmap vx].
    unfold esub, eopp, eadd, ediv, edivz. rdec1. cbn [emul eint].
    rewrite CX by lia.
    replace (IZR n_buckets * ((INR 4 + - 0) / (4 + - 0))) with 12 by (unfold n_buckets; cbn; field).
    rewrite Ztrunc_nonneg by lra. rewrite (Zfloor_IZR 12). reflexivity. }
  assert (FB : exists bs, fill_buckets d cb 0 [0; 1; 2; 3; 4]%nat (repeat (0%nat, bbox_empty) 12) = Ok bs
     /\ split_cost bs cb 0 = NaN).
  { cbn [fill_buckets].
    rewrite (B 0%nat 0%Z), (B 1%nat 3%Z), (B 2%nat 6%Z), (B 3%nat 9%Z), B4 by (try lia; cbn; lra).
    change (Z.to_nat 0) with 0%nat. change (Z.to_nat 3) with 3%nat.
    change (Z.to_nat 6) with 6%nat. change (Z.to_nat 9) with 9%nat.
    cbn [bind nth repeat aset]. eexists. split; [reflexivity|].
    assert (F : forall k, (k < 5)%nat -> flat (bp_bounds (aget d k))).
    { intros k Hk. do 5 (destruct k as [|k]; [eexists _, _; reflexivity|]). lia. }
    unfold split_cost, merge_buckets. cbn [firstn skipn fold_left fst snd Nat.add].
    rewrite !empty_union_empty.
    rewrite !flat_area by
      (repeat first [apply empty_union_flat | apply flat_union_empty | apply flat_union | apply F; lia];
       eexists _, _; reflexivity).
    unfold ediv. cbn [emul eadd]. unfold edivz.
    assert (Reqb 0 0 = true) as -> by (now apply Reqb_true).
    match goal with |- context [Reqb ?a 0] => assert (Reqb a 0 = true) as -> by (apply Reqb_true; ring) end.
    reflexivity. }
  destruct FB as (bs&FB&C0).
  change (seq 0 (5 - 0)) with [0; 1; 2; 3; 4]%nat. rewrite FB. cbn [bind].
  change (map (split_cost bs cb) (seq 0 11)) with (split_cost bs cb 0 :: map (split_cost bs cb) (seq 1 10)).
  rewrite C0, argmin_nan. cbn [nth].
  destruct (Nat.ltb_spec mp (5 - 0)); [lia|]. reflexivity.
Qed.

Lemma sah_five_fails mp : (5 <= mp)%nat -> bvh_build SAH mp five = Err TypeError.
Proof.
  intros Hmp. pose proof (sah_five_split mp Hmp) as SS. unfold bvh_build.
  set (d := build_data five) in *.
  assert (CB : seg_centroids d 0 5 = fbox (mkV 0 0 0) (mkV 4 0 0)).
  { unfold d, seg_centroids, five, fbox, vmap; cbn. unfold bp_centroid, union_pt, emin, emax; cbn.
    rdec. unfold vmap2, emin, emax; cbn. rdec.
    repeat f_equal; lra. }
  assert (BB : seg_bounds d 0 5 = fbox (mkV 0 0 0) (mkV 4 0 0)).
  { unfold d, seg_bounds, five, fbox, vmap; cbn. unfold union_bb, emin, emax; cbn.
    rdec. unfold vmap2, emin, emax; cbn. rdec. reflexivity. }
  assert (ME : maximum_extent (fbox (mkV 0 0 0) (mkV 4 0 0)) = 0%nat).
  { unfold maximum_extent, fbox; cbn. rdec. reflexivity. }
  assert (EQ : eeqb (vnth (bmax (fbox (mkV 0 0 0) (mkV 4 0 0))) 0) (vnth (bmin (fbox (mkV 0 0 0) (mkV 4 0 0))) 0) = false).
  { cbn. rdec. reflexivity. }
  change (length five) with 5%nat.
  remember 4%nat as f eqn:Ef. cbn [build]. rewrite CB, BB, ME, EQ.
  assert (A1 : negb (0 <? S f)%nat = false) by (subst f; reflexivity).
  assert (A2 : (S f - 0 =? 1)%nat = false) by (subst f; reflexivity).
  rewrite A1, A2, SS. reflexivity.
Qed.

(** ** A chain of points 3^0, 3^1, ...: the midpoint split cuts off one point at a time *)
Definition chain (n : nat) : list (vec * vec) := map (fun i => pt (3 ^ i)) (seq 0 n).
Lemma chain_length n : length (chain n) = n.
Proof. unfold chain. now rewrite map_length, seq_length. Qed.
Lemma chain_get n i : (i < n)%nat -> aget (build_data (chain n)) i = mkBP i (mkV (3^i) 0 0) (mkV (3^i) 0 0).
Proof.
  intros H. rewrite (aget_build_data _ _ (pt (3^0))) by (now rewrite chain_length).
  unfold chain. rewrite (map_nth (fun i => pt (3^i))), seq_nth by auto. reflexivity.
Qed.
Lemma pow3_pos i : 0 < 3 ^ i. Proof. apply pow_lt; lra. Qed.
Lemma pow3_mono i j : (i <= j)%nat -> 3 ^ i <= 3 ^ j.
Proof. intros. apply Rle_pow; auto; lra. Qed.

Lemma mkbox_eq a b c d e f a' b' c' d' e' f' : a = a' -> b = b' -> c = c' -> d = d' -> e = e' -> f = f' ->
  mkBox (mkV (Fin a) (Fin b) (Fin c)) (mkV (Fin d) (Fin e) (Fin f)) =
  mkBox (mkV (Fin a') (Fin b') (Fin c')) (mkV (Fin d') (Fin e') (Fin f')).
Proof. congruence. Qed.
Lemma chain_centroids n e : (e < n)%nat ->
  seg_centroids (build_data (chain n)) 0 (S e) = fbox (mkV 1 0 0) (mkV (3^e) 0 0).
Proof.
  induction e as [|e IH]; intros H.
  - unfold seg_centroids. cbn [Nat.sub seq fold_left]. rewrite chain_get by auto.
    unfold bp_centroid, union_pt, fbox, vmap, vmap2, emin, emax; cbn. repeat f_equal; lra.
  - unfold seg_centroids. replace (S (S e) - 0)%nat with (S (S e - 0)) by lia.
    rewrite seq_S, fold_left_app. fold (seg_centroids (build_data (chain n)) 0 (S e)).
    rewrite IH by lia. replace (0 + (S e - 0))%nat with (S e) by lia.
    cbn [fold_left]. rewrite chain_get by auto.
    unfold bp_centroid, union_pt, fbox, vmap, vmap2. cbn [bp_lo bp_hi vscale vadd vmap vmap2 vx vy vz bmin bmax].
    rewrite !emin_Fin, !emax_Fin.
    pose proof (pow3_mono e (S e) ltac:(lia)). pose proof (pow3_mono 0 (S e) ltac:(lia)). cbn [pow] in *.
    repeat match goal with
    | |- context [Rmin ?a ?b] => rewrite (Rmin_left a b) by lra
    | |- context [Rmax ?a ?b] => first [rewrite (Rmax_right a b) by lra | rewrite (Rmax_left a b) by lra]
    end.
    apply mkbox_eq; lra.
Qed.

Lemma part_loop_all_left test d : forall fuel i k, (k - i <= fuel)%nat -> (i <= k)%nat ->
  (forall j, (i <= j < k)%nat -> test (aget d j) = Ok true) ->
  part_loop fuel test d i k = Ok (d, k).
Proof.
  induction fuel as [|f IH]; intros i k Hf Hik H; cbn.
  - reflexivity.
  - destruct (Nat.ltb_spec i k); auto. rewrite H by lia. cbn. apply IH; try lia. intros; apply H; lia.
Qed.

Definition chain_ray : ray := mkRay vzero (mkV 1 0 0) (mkV false false false) (Fin 0) PInf 0%Z 0.

(** [spine k t]: the chain ray passes the box tests of at least [k] interior nodes in a row when
    always descending to the first child. *)
Fixpoint spine (k : nat) (t : tree) : Prop :=
  match k with
  | O => True
  | S k' => match t with
            | Leaf _ _ _ => False
            | Node b ax c0 c1 => box_test b chain_ray = true /\ (ax < 3)%nat /\ spine k' c0
            end
  end.

Lemma build_leaf_one fuel mp m s st : (0 < fuel)%nat ->
  exists t o' tot', build fuel m mp s (S s) st = Ok (t, (fst (fst st), o', tot')).
Proof.
  intros Hf. destruct fuel as [|f]; [lia|]. destruct st as [[d o] tot]. cbn [build].
  destruct (Nat.ltb_spec s (S s)); [|lia]. cbn [negb].
  replace (S s - s =? 1)%nat with true by (symmetry; apply Nat.eqb_eq; lia).
  eexists _, _, _. reflexivity.
Qed.

Lemma build_chain n mp : forall e fuel o tot, (e < n)%nat -> (e < fuel)%nat ->
  exists t o' tot', build fuel MIDDLE mp 0 (S e) (build_data (chain n), o, tot) =
    Ok (t, (build_data (chain n), o', tot')) /\ spine e t.
Proof.
  induction e as [|e IH]; intros fuel o tot He Hf.
  - destruct (build_leaf_one fuel mp MIDDLE 0 (build_data (chain n), o, tot) Hf) as (t&o'&tot'&E).
    exists t, o', tot'. cbn. auto.
  - destruct fuel as [|f]; [lia|].
    set (d := build_data (chain n)) in *.
    destruct (IH f o (S tot) ltac:(lia) ltac:(lia)) as (c0&o1&tot1&E0&S0).
    destruct (build_leaf_one f mp MIDDLE (S e) (d, o1, tot1) ltac:(lia)) as (c1&o2&tot2&E1). cbn [fst] in E1.
    assert (RES : build (S f) MIDDLE mp 0 (S (S e)) (d, o, tot) =
      Ok (Node (union_bb (tbounds c0) (tbounds c1)) 0 c0 c1, (d, o2, tot2))).
    { pose proof (chain_centroids n (S e) ltac:(lia)) as CC. fold d in CC. cbn [build].
      change (negb (0 <? S (S e))%nat) with false. cbn iota.
      replace (S (S e) - 0 =? 1)%nat with false by (symmetry; apply Nat.eqb_neq; lia).
      rewrite CC.
      assert (P : 1 < 3 ^ S e). { pose proof (pow3_mono 0 e ltac:(lia)). cbn [pow] in *. lra. }
      assert (ME : maximum_extent (fbox (mkV 1 0 0) (mkV (3 ^ S e) 0 0)) = 0%nat).
      { unfold maximum_extent, fbox. cbn -[pow]. repeat (rdec1; cbn -[pow]). reflexivity. }
      rewrite ME. cbn [vnth fbox bmax bmin vmap vx eeqb].
      rdec1. cbn [eadd emul].
      unfold partition_mid. rewrite part_loop_all_left.
      2: lia. 2: lia.
      2:{ intros j Hj. unfold d. rewrite chain_get by lia. cbn [vnth bp_centroid bp_lo bp_hi vscale vmap vadd vmap2 vx].
          f_equal. apply Rltb_true. pose proof (pow3_mono j e ltac:(lia)). cbn [pow]. 
          pose proof (pow3_pos e). lra. }
      cbn [bind]. replace (S (S e) - 1)%nat with (S e) by lia.
      destruct (Nat.eqb_spec (S e) (S (S e))); [lia|]. destruct (Nat.eqb_spec (S e) 0); [lia|].
      cbn [orb]. rewrite E0. cbn [bind]. rewrite E1. reflexivity. }
    exists (Node (union_bb (tbounds c0) (tbounds c1)) 0 c0 c1), o2, tot2. split; [exact RES|].
    split; [|auto].
    apply build_spec in RES.
    2:{ cbn [fst]. unfold d. rewrite build_data_length, chain_length. lia. }
    destruct RES as (_&_&_&D).
    change (union_bb (tbounds c0) (tbounds c1)) with (tbounds (Node (union_bb (tbounds c0) (tbounds c1)) 0 c0 c1)).
    assert (G : forall q, In q (slice d 0 (S (S e))) -> exists i, q = mkBP i (mkV (3^i) 0 0) (mkV (3^i) 0 0)).
    { intros q Hq. apply in_map_iff in Hq. destruct Hq as (i&<-&Hi). apply in_seq in Hi.
      exists i. apply chain_get. lia. }
    eapply (tree_test_conservative _ _ _ chain_ray (mkBP 0 (mkV 1 0 0) (mkV 1 0 0)) 1 D).
    + repeat split; auto.
    + intros q Hq Z. cbn in Z. lra.
    + apply in_map_iff. exists 0%nat. split; [|apply in_seq; lia].
      unfold d. rewrite chain_get by lia. cbn. reflexivity.
    + unfold between, vle; cbn. lra.
    + apply elt_Fin; lra.
    + reflexivity.
Qed.

Lemma spine_overflow nodes pi : forall k t j todo st fuel, spine k t -> laid_out nodes j t ->
  fst st = chain_ray -> (64 < length todo + k)%nat -> (length todo <= 64)%nat -> (k <= fuel)%nat ->
  traverse fuel pi nodes j todo st = Err IndexError.
Proof.
  induction k as [|k IH]; intros t j todo st fuel Hs Hl Hr Hlen Hle Hf; [lia|].
  destruct fuel as [|f]; [lia|]. destruct t as [|b ax c0 c1]; [contradiction|].
  destruct Hs as (Hb&Hax&Hs). cbn in Hl. destruct Hl as (Hn&Hl0&_). cbn [traverse].
  rewrite Hn. cbn [l_bounds l_nprim l_offset l_axis]. rewrite Hr, Hb.
  change (0 <? 0)%nat with false. cbn iota.
  destruct (Nat.leb_spec 64 (length todo)); [reflexivity|].
  replace (Rltb (vnth (rd chain_ray) ax) 0) with false
    by (symmetry; apply Rltb_false; destruct ax as [|[|[|]]]; cbn; lra).
  apply (IH c0); auto; cbn; lia.
Qed.

Lemma chain_overflow n mp pi : (66 <= n)%nat ->
  exists nodes ordered, bvh_make MIDDLE mp (chain n) = Ok (Some (nodes, ordered)) /\
    forall fuel, (n <= fuel)%nat -> bvh_intersect fuel pi (Some nodes) chain_ray = Err IndexError.
Proof.
  intros Hn.
  destruct (build_chain n mp (n - 1) n [] 0 ltac:(lia) ltac:(lia)) as (t&o&tot&E&S).
  replace (Datatypes.S (n - 1)) with n in E by lia.
  assert (B : bvh_build MIDDLE mp (chain n) = Ok (t, o, tot)).
  { unfold bvh_build. rewrite chain_length, E. reflexivity. }
  destruct (bvh_build_spec _ _ _ _ _ _ B) as (ps&_&_&_&HT&_).
  destruct (bvh_flatten_spec t) as (nodes&F&_&L).
  exists nodes, o. split.
  - unfold bvh_make. destruct (chain n) eqn:C; [pose proof (chain_length n); rewrite C in *; cbn in *; lia|].
    rewrite B. cbn [bind]. rewrite HT, F. reflexivity.
  - intros fuel Hf. unfold bvh_intersect. apply (spine_overflow nodes pi (n-1) t); auto; cbn; lia.
Qed.

(** ** end to end *)
Lemma bvh_make_inv method mp bounds nodes ordered :
  bvh_make method mp bounds = Ok (Some (nodes, ordered)) ->
  exists t ps, bvh_build method mp bounds = Ok (t, ordered, length nodes) /\ length nodes = tsize t /\
    laid_out nodes 0 t /\ describes t ps 0 /\ Permutation ps (build_data bounds) /\
    ordered = map bp_idx ps /\ Permutation ordered (seq 0 (length bounds)) /\ bounds <> [].
Proof.
  unfold bvh_make. destruct bounds as [|b bs] eqn:EB; [discriminate|]. rewrite <- EB.
  destruct (bvh_build method mp bounds) as [[[t o] tot]|] eqn:B; [|discriminate]. cbn [bind].
  destruct (bvh_build_spec _ _ _ _ _ _ B) as (ps&P&O&PO&HT&D).
  destruct (bvh_flatten_spec t) as (nd&F&L&LO). rewrite HT, F. cbn [bind].
  intros [= <- <-]. exists t, ps. rewrite L, <- HT. split; auto. split; auto. split; auto.
  split; auto. split; auto. split; auto. split; auto. rewrite EB. discriminate.
Qed.

Lemma ps_nth bounds ps i : Permutation ps (build_data bounds) -> (i < length ps)%nat ->
  let k := nth i (map bp_idx ps) 0%nat in (k < length bounds)%nat /\
  nth i ps dflt = mkBP k (fst (nth k bounds (vzero, vzero))) (snd (nth k bounds (vzero, vzero))).
Proof.
  intros P Hi. cbn zeta.
  rewrite nth_indep with (d' := bp_idx dflt) by (now rewrite map_length).
  rewrite (map_nth bp_idx).
  assert (In (nth i ps dflt) (build_data bounds)) as HI.
  { eapply Permutation_in; [exact P|]. now apply nth_In. }
  apply In_nth with (d := dflt) in HI. destruct HI as (j&Hj&Ej). rewrite build_data_length in Hj.
  pose proof (aget_build_data bounds j (vzero, vzero) Hj) as Q. unfold aget in Q.
  rewrite Ej in Q. rewrite Q. cbn. auto.
Qed.

Section EndToEnd.
  Variables (method : split_method) (mp : nat) (bounds : list (vec * vec)) (nodes : list lnode) (ordered : list nat).
  Variables (t : tree) (ps : list bprim) (surf : nat -> R -> Prop) (r0 : ray).
  Hypothesis (HL : laid_out nodes 0 t) (HD : describes t ps 0) (HP : Permutation ps (build_data bounds))
    (HO : ordered = map bp_idx ps) (HPO : Permutation ordered (seq 0 (length bounds)))
    (HZ : pos_zero r0) (HF : forall b, In b bounds -> off_x_faces r0 (fst b) (snd b))
    (HW : within_bounds surf (fun i => nth i bounds (vzero, vzero)) r0 (length bounds))
    (HH : (theight t <= 64)%nat).
  Let pos k := nth k ordered 0%nat.

  Lemma e2e_len : length ps = length bounds.
  Proof. apply Permutation_length in HP. rewrite HP. apply build_data_length. Qed.
  Lemma e2e_pos k : (k < length bounds)%nat -> (pos k < length bounds)%nat.
  Proof.
    intros H. unfold pos. rewrite HO. rewrite <- e2e_len in H. exact (proj1 (ps_nth bounds ps k HP H)).
  Qed.
  Lemma e2e_surj i : (i < length bounds)%nat -> exists k, (k < length bounds)%nat /\ pos k = i.
  Proof.
    intros H. assert (In i ordered) as HI.
    { eapply Permutation_in; [apply Permutation_sym, HPO|]. apply in_seq. lia. }
    apply In_nth with (d := 0%nat) in HI. destruct HI as (k&Hk&E). exists k. split; auto.
    apply Permutation_length in HPO. rewrite seq_length in HPO. lia.
  Qed.
  Lemma e2e_faces q : In q ps -> off_x_faces r0 (bp_lo q) (bp_hi q).
  Proof.
    intros H. apply In_nth with (d := dflt) in H. destruct H as (i&Hi&<-).
    destruct (ps_nth bounds ps i HP Hi) as [Hk ->]. cbn. apply HF. now apply nth_In.
  Qed.
  Lemma e2e_within i tt : (i < length ps)%nat -> surf (pos i) tt ->
    between (bp_lo (nth i ps dflt)) (ray_at r0 tt) (bp_hi (nth i ps dflt)).
  Proof.
    intros Hi Hs. destruct (ps_nth bounds ps i HP Hi) as [Hk ->]. cbn [bp_lo bp_hi].
    rewrite <- HO in *. apply (HW (pos i)); auto.
  Qed.

  Lemma e2e_nearest pi fuel : notnan (rmaxt r0) -> nearest_contract surf pi r0 -> (tsize t <= fuel)%nat ->
    exists r' hit, traverse fuel (fun k => pi (pos k)) nodes 0 [] (r0, None) = Ok (Some (r', hit)) /\
      nearest_hit surf (length bounds) r0 r' (option_map pos hit).
  Proof.
    intros HM HC HFu.
    destruct (traverse_nearest (fun k => surf (pos k)) t ps nodes r0 (fun k => pi (pos k)) fuel HFu HD HL HH HZ
      e2e_faces HM e2e_within) as (r'&hit&HT&HN).
    { intros i m Nm. apply (HC (pos i) m Nm). }
    exists r', hit. split; auto. rewrite e2e_len in HN. destruct hit as [i|]; cbn in *.
    - destruct HN as (Hi&tt&A&B&C&D&F). split; [now apply e2e_pos|]. exists tt. repeat split; auto.
      intros j t' Hj Hs Hm. destruct (e2e_surj j Hj) as (k&Hk&<-). eauto.
    - destruct HN as (A&B). split; auto. intros j tt Hj Hs H1 H2.
      destruct (e2e_surj j Hj) as (k&Hk&<-). eauto.
  Qed.

  Lemma e2e_any pp fuel : any_contract surf pp r0 -> (tsize t <= fuel)%nat ->
    exists b, traverse_p fuel (fun k => pp (pos k)) nodes 0 [] r0 = Ok (Some b) /\
      any_hit surf (length bounds) r0 b.
  Proof.
    intros HC HFu.
    destruct (traverse_p_any (fun k => surf (pos k)) t ps nodes r0 (fun k => pp (pos k)) fuel HFu HD HL HH HZ
      e2e_faces e2e_within) as (b&HT&HN).
    { intros i. apply (HC (pos i)). }
    exists b. split; auto. destruct b; cbn in *.
    - destruct HN as (i&tt&Hi&A&B&C). rewrite e2e_len in Hi. exists (pos i), tt. repeat split; auto using e2e_pos.
    - intros j tt Hj Hs H1 H2. destruct (e2e_surj j Hj) as (k&Hk&<-). 
      exact (HN k tt ltac:(now rewrite e2e_len) Hs H1 H2).
  Qed.
End EndToEnd.

Lemma bvh_nearest_height method mp bounds nodes ordered surf pi r0 fuel :
  bvh_make method mp bounds = Ok (Some (nodes, ordered)) ->
  (forall t o n, bvh_build method mp bounds = Ok (t, o, n) -> (theight t <= 64)%nat) ->
  pos_zero r0 -> (forall b, In b bounds -> off_x_faces r0 (fst b) (snd b)) -> notnan (rmaxt r0) ->
  within_bounds surf (fun i => nth i bounds (vzero, vzero)) r0 (length bounds) ->
  nearest_contract surf pi r0 -> (length nodes <= fuel)%nat ->
  exists r' hit, bvh_intersect fuel (fun k => pi (nth k ordered 0%nat)) (Some nodes) r0 = Ok (Some (r', hit)) /\
    nearest_hit surf (length bounds) r0 r' (option_map (fun k => nth k ordered 0%nat) hit).
Proof.
  intros M Hh HZ HF HM HW HC Hfu.
  destruct (bvh_make_inv _ _ _ _ _ M) as (t&ps&B&L&LO&D&P&O&PO&_).
  apply (e2e_nearest bounds nodes ordered t ps surf r0); auto; [eauto|lia].
Qed.
Lemma bvh_any_height method mp bounds nodes ordered surf pp r0 fuel :
  bvh_make method mp bounds = Ok (Some (nodes, ordered)) ->
  (forall t o n, bvh_build method mp bounds = Ok (t, o, n) -> (theight t <= 64)%nat) ->
  pos_zero r0 -> (forall b, In b bounds -> off_x_faces r0 (fst b) (snd b)) ->
  within_bounds surf (fun i => nth i bounds (vzero, vzero)) r0 (length bounds) ->
  any_contract surf pp r0 -> (length nodes <= fuel)%nat ->
  exists b, bvh_intersect_p fuel (fun k => pp (nth k ordered 0%nat)) (Some nodes) r0 = Ok (Some b) /\
    any_hit surf (length bounds) r0 b.
Proof.
  intros M Hh HZ HF HW HC Hfu.
  destruct (bvh_make_inv _ _ _ _ _ M) as (t&ps&B&L&LO&D&P&O&PO&_).
  apply (e2e_any bounds nodes ordered t ps surf r0); auto; [eauto|lia].
Qed.
Lemma bvh_height_small method mp bounds t o n : (length bounds <= 65)%nat ->
  bvh_build method mp bounds = Ok (t, o, n) -> (theight t <= 64)%nat.
Proof.
  intros H B. destruct (bvh_build_spec _ _ _ _ _ _ B) as (ps&P&_&_&_&D).
  apply height_lt_prims in D. apply Permutation_length in P. rewrite build_data_length in P. lia.
Qed.

Lemma describes_all_nodes t : forall ps off, describes t ps off ->
  (forall p, In p ps -> box_le (bp_bounds p) (tbounds t)) /\ tbounds t = bounds_of ps.
Proof.
  intros ps off D. pose proof (describes_bounds _ _ _ D) as E. split; auto.
  intros p Hp. rewrite E. now apply bounds_of_covers.
Qed.

(** ** box-test witnesses *)
Definition wit_ray (x : R) (nz : bool) : ray :=
  mkRay (mkV x (/2) (-1)) (mkV 0 0 1) (mkV nz false false) (Fin 0) PInf 0%Z 0.
Lemma face_missed : exists lo hi r t, between lo (ray_at r t) hi /\ elt (rmint r) (Fin t) /\
  elt (Fin t) (rmaxt r) /\ pos_zero r /\ bvh_box_test lo hi r = false.
Proof.
  exists (mkV 0 0 0), (mkV 1 1 1), (wit_ray 0 false), 1.
  split; [unfold between, vle; cbn; lra|]. split; [apply elt_Fin; lra|]. split; [reflexivity|].
  split; [repeat split; auto|].
  unfold bvh_box_test, slab_lo, slab_hi, inv_comp, edivz; cbn. rdec.
  unfold esgn_inf; rdec. reflexivity.
Qed.
Lemma negzero_missed : exists lo hi r t, between lo (ray_at r t) hi /\ elt (rmint r) (Fin t) /\
  elt (Fin t) (rmaxt r) /\ (forall t, vx lo < vx (ray_at r t) < vx hi) /\ bvh_box_test lo hi r = false.
Proof.
  exists (mkV 0 0 0), (mkV 1 1 1), (wit_ray (/2) true), 1.
  split; [unfold between, vle; cbn; lra|]. split; [apply elt_Fin; lra|]. split; [reflexivity|].
  split; [intros t; cbn; lra|].
  unfold bvh_box_test, slab_lo, slab_hi, inv_comp, edivz; cbn. rdec.
  unfold esgn_inf; rdec. reflexivity.
Qed.

(** ** nodes and what is stored below them *)
Lemma stored_describes ps : forall t l off, describes t l off ->
  forall pre post, ps = pre ++ l ++ post -> length pre = off ->
  stored (map bp_idx ps) t = map bp_idx l /\
  forall s, subtree s t -> exists l' off', describes s l' off' /\ stored (map bp_idx ps) s = map bp_idx l' /\
     (forall p, In p l' -> In p l).
Proof.
  induction 1 as [l off Hne|ax c0 c1 l0 l1 off H0 IH0 H1 IH1]; intros pre post E Lp.
  - assert (ST : stored (map bp_idx ps) (Leaf (bounds_of l) off (length l)) = map bp_idx l).
    { cbn. rewrite E, !map_app. rewrite skipn_app. rewrite map_length, Lp, Nat.sub_diag. cbn [skipn].
      rewrite skipn_all2 by (rewrite map_length; lia). cbn [app].
      rewrite firstn_app, map_length, Nat.sub_diag. cbn [firstn]. rewrite app_nil_r.
      rewrite <- (map_length bp_idx l) at 1. apply firstn_all. }
    split; auto. intros s Hs. inversion Hs; subst. exists l, (length pre). split; [constructor; auto|auto].
  - assert (E0 : ps = pre ++ l0 ++ (l1 ++ post)) by (rewrite E; now rewrite <- !app_assoc).
    assert (E1 : ps = (pre ++ l0) ++ l1 ++ post) by (rewrite E; now rewrite <- !app_assoc).
    destruct (IH0 _ _ E0 Lp) as [S0 T0].
    destruct (IH1 _ _ E1 ltac:(rewrite app_length; lia)) as [S1 T1].
    assert (ST : stored (map bp_idx ps) (Node (bounds_of (l0 ++ l1)) ax c0 c1) = map bp_idx (l0 ++ l1)).
    { cbn [stored]. now rewrite S0, S1, map_app. }
    split; auto. intros s Hs. inversion Hs; subst.
    + exists (l0 ++ l1), (length pre). split; [constructor; auto|auto].
    + destruct (T0 s ltac:(assumption)) as (l'&o'&A&B&C). exists l', o'. repeat split; auto.
      intros p Hp. apply in_or_app. auto.
    + destruct (T1 s ltac:(assumption)) as (l'&o'&A&B&C). exists l', o'. repeat split; auto.
      intros p Hp. apply in_or_app. auto.
Qed.

Lemma bvh_nodes_enclose method mp bounds t ordered n :
  bvh_build method mp bounds = Ok (t, ordered, n) ->
  stored ordered t = ordered /\
  (forall s, subtree s t -> stored ordered s <> [] /\
     forall i, In i (stored ordered s) -> (i < length bounds)%nat /\ box_le (given_bounds bounds i) (tbounds s)) /\
  tbounds t = accumulate bbox_empty (map (fun b => GB (fbox (fst b) (snd b))) bounds).
Proof.
  intros B. destruct (bvh_build_spec _ _ _ _ _ _ B) as (ps&P&O&PO&HT&D).
  destruct (stored_describes ps t ps 0 D [] [] ltac:(now rewrite app_nil_r) eq_refl) as [S T].
  rewrite O. split; [exact S|]. split.
  - intros s Hs. destruct (T s Hs) as (l&off&Ds&E&HI). rewrite E. split.
    { intros Hn. apply describes_nonempty in Ds. apply map_eq_nil in Hn. contradiction. }
    intros i Hi. apply in_map_iff in Hi. destruct Hi as (p&<-&Hp).
    destruct (describes_all_nodes _ _ _ Ds) as [C _]. specialize (C p Hp).
    assert (HPp := HI p Hp). apply In_nth with (d := dflt) in HPp. destruct HPp as (j&Hj&Ej).
    destruct (ps_nth bounds ps j P Hj) as [Hk Q]. rewrite Ej in Q. rewrite Q. cbn [bp_idx].
    split; auto. rewrite Q in C. unfold bp_bounds in C; cbn [bp_lo bp_hi] in C.
    unfold given_bounds. destruct (nth _ bounds (vzero, vzero)); exact C.
  - rewrite (describes_bounds _ _ _ D). rewrite (bounds_of_perm _ _ P). unfold bounds_of. f_equal.
    unfold build_data. rewrite map_map. clear.
    generalize (seq_length (length bounds) 0). generalize (seq 0 (length bounds)) as l.
    induction bounds as [|[lo hi] bs IH]; intros [|a l] H; cbn in *; try discriminate; auto.
    f_equal. apply IH. lia.
Qed.

Lemma bvh_make_total mp x l : (mp <= 4)%nat ->
  exists r, bvh_make SAH mp (x :: l) = Ok r /\ (r = None <-> x :: l = []).
Proof.
  intros Hmp. pose proof (bvh_build_total mp (x :: l) Hmp ltac:(discriminate)) as T.
  destruct (bvh_build SAH mp (x :: l)) as [[[t o] n]|] eqn:B; [|discriminate].
  destruct (bvh_build_spec _ _ _ _ _ _ B) as (ps&_&_&_&HT&_).
  destruct (bvh_flatten_spec t) as (nd&F&_&_).
  exists (Some (nd, o)). split; [|split; discriminate].
  unfold bvh_make. rewrite B. cbn [bind]. rewrite HT, F. reflexivity.
Qed.
Lemma bvh_make_lossless method mp bounds nodes ordered :
  bvh_make method mp bounds = Ok (Some (nodes, ordered)) ->
  Permutation ordered (seq 0 (length bounds)) /\
  exists t, bvh_build method mp bounds = Ok (t, ordered, length nodes) /\
    stored ordered t = ordered /\ length nodes = tsize t.
Proof.
  intros H. destruct (bvh_make_inv _ _ _ _ _ H) as (t&ps&B&L&LO&D&P&O&PO&_).
  split; auto. exists t. split; auto. split; auto. exact (proj1 (bvh_nodes_enclose _ _ _ _ _ _ B)).
Qed.
Lemma bvh_make_layout method mp bounds nodes ordered :
  bvh_make method mp bounds = Ok (Some (nodes, ordered)) ->
  exists t, bvh_build method mp bounds = Ok (t, ordered, length nodes) /\
    laid_out nodes 0 t /\ length nodes = tsize t.
Proof. intros H. destruct (bvh_make_inv _ _ _ _ _ H) as (t&ps&B&L&LO&_). eauto. Qed.
Lemma laid_out_root nodes j t : laid_out nodes j t -> exists nd, nth_error nodes j = Some nd /\ l_bounds nd = tbounds t.
Proof. destruct t; cbn; [eauto|intros (H&_); eauto]. Qed.
Lemma bvh_world_bound_union method mp bounds nodes ordered :
  bvh_make method mp bounds = Ok (Some (nodes, ordered)) ->
  bvh_world_bound (Some nodes) = Ok (accumulate bbox_empty (map (fun b => GB (fbox (fst b) (snd b))) bounds)).
Proof.
  intros H. destruct (bvh_make_layout _ _ _ _ _ H) as (t&B&L&_).
  destruct (laid_out_root _ _ _ L) as (nd&E&Eb). cbn [bvh_world_bound]. rewrite E, Eb.
  destruct (bvh_nodes_enclose _ _ _ _ _ _ B) as (_&_&->). reflexivity.
Qed.
Lemma layout_indices nodes ps n : forall t l off j, describes t l off -> laid_out nodes j t ->
  (off + length l <= length ps)%nat -> (j + tsize t <= n)%nat ->
  forall k nd, (j <= k < j + tsize t)%nat -> nth_error nodes k = Some nd ->
    if (0 <? l_nprim nd)%nat then (l_offset nd + l_nprim nd <= length (ps : list bprim))%nat
    else (S k < n)%nat /\ (S k < l_offset nd < n)%nat.
Proof.
  induction t as [b f m|b ax c0 IH0 c1 IH1]; intros l off j D L Hl Hn k nd Hk E.
  - cbn in *. assert (k = j) by lia. subst k. rewrite L in E. injection E as <-. cbn.
    inversion D; subst. assert (0 < length l)%nat by (destruct l; cbn; [congruence|lia]).
    apply Nat.ltb_lt in H as H'. rewrite H'. lia.
  - cbn [tsize] in *. cbn in L. destruct L as (A&L0&L1). inversion D; subst.
    rewrite app_length in Hl.
    pose proof (tsize_pos c0). pose proof (tsize_pos c1).
    destruct (Nat.eq_dec k j) as [->|Hne].
    + rewrite A in E. injection E as <-. cbn [l_nprim l_offset]. change (0 <? 0)%nat with false. cbn iota.
      split; lia.
    + destruct (le_lt_dec (S j + tsize c0) k).
      * eapply (IH1 _ _ _ ltac:(eassumption) L1); eauto; lia.
      * eapply (IH0 _ _ _ ltac:(eassumption) L0); eauto; lia.
Qed.
Lemma bvh_indices method mp bounds nodes ordered :
  bvh_make method mp bounds = Ok (Some (nodes, ordered)) ->
  forall j nd, nth_error nodes j = Some nd ->
    if (0 <? l_nprim nd)%nat then (l_offset nd + l_nprim nd <= length ordered)%nat
    else (S j < length nodes)%nat /\ (S j < l_offset nd < length nodes)%nat.
Proof.
  intros H j nd E. destruct (bvh_make_inv _ _ _ _ _ H) as (t&ps&B&L&LO&D&P&O&PO&_).
  assert (j < length nodes)%nat by (apply nth_error_Some; congruence).
  pose proof (layout_indices nodes ps (length nodes) t ps 0 0 D LO ltac:(lia) ltac:(lia) j nd ltac:(lia) E) as Q.
  rewrite O, map_length. exact Q.
Qed.
