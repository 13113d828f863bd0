(** From the constructor to the refined mesh. *)
From Coq Require Import Reals Lra List Bool Arith Lia Relations.
From Verif Require Import Base M_Geometry S_Geometry P_Geometry M_Loop S_Loop P_Loop1 P_Loop2 P_Loop3 P_Loop4 P_Loop5 P_Loop6 P_Loop7 P_Loop8 P_Loop9 P_Loop10 P_Loop11.
Import ListNotations.
Lemma levels_snoc fuel n : forall m, levels (S n) fuel m = (dr m1 <- levels n fuel m; refine1 (fuel (length (mF m1))) m1).
Proof.
  induction n as [|n IH]; intros m.
  - cbn [levels rbind ret]. destruct (refine1 _ m) as [[x|]|]; reflexivity.
  - change (levels (S (S n)) fuel m) with (dr m' <- refine1 (fuel (length (mF m))) m; levels (S n) fuel m').
    change (levels (S n) fuel m) with (dr m' <- refine1 (fuel (length (mF m))) m; levels n fuel m').
    destruct (refine1 (fuel (length (mF m))) m) as [[x|]|]; cbn [rbind]; auto.
Qed.
Section At.
Variables (fuel : nat -> nat) (ts : list (V3 nat)) (ps : list vec).
Hypothesis SF : surface ts (length ps).
Hypothesis FU : enough fuel.
Lemma at_ex n : exists m, mesh_at fuel ts ps n m.
Proof.
  destruct (make_ok ts ps (fuel (length ts)) SF (FU _)) as (m0 & Q & T & P & OK).
  assert (SF0 : surface (tris m0) (length (mV m0))) by (rewrite T, <- (map_length vP), P; exact SF).
  destruct (levels_ok fuel FU n m0 SF0 OK) as (m & Q' & _). exists m. exists m0. auto.
Qed.
Lemma at_det n m m' : mesh_at fuel ts ps n m -> mesh_at fuel ts ps n m' -> m = m'.
Proof. intros (a & A & B) (b & C & D). assert (a = b) by (rewrite A in C; now injection C). subst. rewrite B in D. now injection D. Qed.
Lemma at_zero m : mesh_at fuel ts ps 0 m -> loop_make (fuel (length ts)) ts ps = ret m /\ tris m = ts /\ map vP (mV m) = ps /\ mesh_ok m.
Proof.
  intros (m0 & Q & L). injection L as <-. split; [exact Q|]. destruct (make_ok ts ps (fuel (length ts)) SF (FU _)) as (m1 & Q1 & X). assert (m0 = m1) by (rewrite Q in Q1; now injection Q1). subst. exact X.
Qed.
Lemma at_ok n m : mesh_at fuel ts ps n m -> surface (tris m) (length (mV m)) /\ mesh_ok m /\ length (tris m) = (4 ^ n * length ts)%nat /\
  (forall e e', edge_count ts e -> edge_count (tris m) e' -> (length (mV m) + length (tris m) + e = length ps + length ts + e')%nat) /\
  (forall q, In q (map vP (mV m)) -> in_hull ps q).
Proof.
  intros (m0 & Q & L). destruct (at_zero m0) as (_ & T & P & OK); [exists m0; auto|].
  assert (LP : length (mV m0) = length ps) by (now rewrite <- (map_length vP), P).
  assert (SF0 : surface (tris m0) (length (mV m0))) by (rewrite T, LP; exact SF).
  destruct (levels_ok fuel FU n m0 SF0 OK) as (m1 & Q1 & A & B & C & D). assert (m1 = m) by (rewrite L in Q1; now injection Q1). subst m1.
  rewrite T in C. split; [exact A|]. split; [exact B|]. split; [exact C|]. split.
  - intros e e' E E'. rewrite T in D. rewrite LP in D. now apply D.
  - rewrite <- P. now apply (levels_hull fuel FU n m0 m).
Qed.
Lemma at_step n m m' : mesh_at fuel ts ps n m -> mesh_at fuel ts ps (S n) m' -> refine1 (fuel (length (mF m))) m = ret m' /\ level_ok m m'.
Proof.
  intros H H'. destruct (at_ok n m H) as (A & B & _).
  destruct (refine1_ok m (fuel (length (mF m))) A B) as (m1 & Q & L); [rewrite tris_len; apply FU|].
  assert (m' = m1). { apply (at_det (S n)); [exact H'|]. destruct H as (m0 & Q0 & L0). exists m0. split; [exact Q0|]. rewrite levels_snoc, L0. exact Q. }
  subst. auto.
Qed.
End At.
Lemma bound_accum m : loop_object_bound m = accumulate bbox_empty (map (fun x => GP (vmap Fin (vP x))) (mV m)).
Proof.
  unfold loop_object_bound, accumulate. generalize bbox_empty. induction (mV m) as [|x l IH]; intros b; cbn [fold_left map]; [reflexivity|]. rewrite IH. reflexivity.
Qed.
Lemma bound_in m q : In q (map vP (mV m)) -> in_box (loop_object_bound m) q.
Proof.
  intros H. rewrite bound_accum. apply in_map_iff in H as (x & <- & HIn).
  destruct (box_union_main (map (fun x => GP (vmap Fin (vP x))) (mV m))) as (_ & _ & C & _).
  - apply Forall_forall. intros g Hg. apply in_map_iff in Hg as (y & <- & _). unfold geom_ok, nonan3, vmap, notnan; cbn. repeat split; discriminate.
  - apply C. apply in_map_iff. exists x. auto.
Qed.
(** the constructor commutes with moving the positions *)
Lemma upd_move A m v x : upd_vert (move A m) v (mvv A x) = move A (upd_vert m v x).
Proof. unfold upd_vert, move; cbn [mF mV]. f_equal. rewrite map_app. cbn [map]. now rewrite firstn_map, skipn_map. Qed.
Lemma finish_move A fuel ts m v m' : (v < length (mV m))%nat -> finish_vertex fuel ts m v = ret m' -> finish_vertex fuel ts (move A m) v = ret (move A m').
Proof.
  intros Hv. unfold finish_vertex. destruct (start_face ts v) as [s|]; [|discriminate].
  change (next_face (move A m)) with (next_face m). destruct (lift (next_face m v s)) as [[f|]|]; cbn [rbind]; try discriminate.
  destruct (walk (next_face m v) (Some s) fuel f) as [[[l b]|]|]; cbn [rbind]; try discriminate. rewrite posn_move by auto.
  change (mkVt (A (posn m v)) s (negb b) false) with (mvv A (mkVt (posn m v) s (negb b) false)). rewrite upd_move, valence_move by (rewrite upd_len; auto).
  destruct (valence _ fuel v) as [[k|]|]; cbn [rbind]; try discriminate. intros H. injection H as <-.
  rewrite <- !upd_move. reflexivity.
Qed.
Lemma fold_move A fuel ts l : forall m m', (forall v, In v l -> (v < length (mV m))%nat) -> foldR (finish_vertex fuel ts) l m = ret m' ->
  foldR (finish_vertex fuel ts) l (move A m) = ret (move A m').
Proof.
  induction l as [|v l IH]; intros m m' R Q; cbn [foldR] in *; fold (@foldR mesh nat) in *.
  - injection Q as <-. reflexivity.
  - destruct (finish_vertex fuel ts m v) as [[m1|]|] eqn:F; cbn [rbind] in Q; try discriminate.
    rewrite (finish_move A fuel ts m v m1) by (auto; apply R; now left). cbn [rbind ret]. apply IH; [|exact Q].
    assert (L1 : length (mV m1) = length (mV m)).
    { assert (Hv : (v < length (mV m))%nat) by (apply R; now left). revert F. unfold finish_vertex. destruct (start_face ts v) as [s|]; [|discriminate].
      destruct (lift (next_face m v s)) as [[f|]|]; cbn [rbind]; try discriminate.
      destruct (walk (next_face m v) (Some s) fuel f) as [[[l' b]|]|]; cbn [rbind]; try discriminate.
      destruct (valence _ fuel v) as [[k|]|]; cbn [rbind]; try discriminate. intros H. injection H as <-. rewrite !upd_len; auto. rewrite upd_len; auto. }
    intros u Hu. rewrite L1. apply R. now right.
Qed.
Lemma make_move A ts ps fuel m0 : surface ts (length ps) -> (length ts <= fuel)%nat -> loop_make fuel ts ps = ret m0 -> loop_make fuel ts (map A ps) = ret (move A m0).
Proof.
  intros SF FU Q. unfold loop_make in *. rewrite map_length.
  match goal with |- foldR _ _ ?M = _ => replace M with (move A (mkMesh (linked_faces ts) (map (fun v => mkVt (nth v ps vzero) (match start_face ts v with Some s => s | None => 0%nat end) false false) (seq 0 (length ps))))) end.
  - apply fold_move; [|exact Q]. intros v Hv. cbn [mV]. rewrite map_length, seq_length. apply in_seq in Hv. lia.
  - unfold move; cbn [mF mV]. f_equal. rewrite map_map. apply map_ext_in. intros v Hv. apply in_seq in Hv. cbn [vP vstart vbnd vreg]. f_equal.
    rewrite (nth_indep (map A ps) vzero (A vzero)) by (rewrite map_length; lia). now rewrite map_nth.
Qed.
