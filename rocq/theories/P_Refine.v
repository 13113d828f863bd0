(** Proofs about refinement hierarchies (C34). *)
From Coq Require Import Reals List Bool ZArith Arith Lia Permutation.
From Verif Require Import Base M_Geometry M_BVH M_Aggregate S_Aggregate.
Import ListNotations.
Local Open Scope nat_scope.

Definition nodes_of (ps : list gprim) : nat := list_sum (map (fun p => shp_nodes (gp_shape p)) ps).

Lemma nodes_app a b : nodes_of (a ++ b) = nodes_of a + nodes_of b.
Proof. unfold nodes_of. now rewrite map_app, list_sum_app. Qed.

Lemma gp_refine_loop_spec subs m a : forall refined next,
  exists cs, gp_refine_loop subs m a refined next = (refined ++ cs, next + length subs) /\
    map gp_shape cs = subs /\ map gp_id cs = seq next (length subs) /\
    Forall (fun p => gp_mat p = m /\ gp_light p = a) cs.
Proof.
  induction subs as [|s subs IH]; intros refined next; cbn [gp_refine_loop].
  - exists []. rewrite app_nil_r, Nat.add_0_r. repeat split; constructor.
  - unfold gp_new. destruct (IH (refined ++ [mkGP next s m a]) (S next)) as (cs&E&S1&S2&F).
    exists (mkGP next s m a :: cs). rewrite E, <- app_assoc. cbn.
    repeat split.
    + f_equal; lia.
    + now f_equal.
    + f_equal; exact S2.
    + constructor; [now split|exact F].
Qed.

Lemma NoDup_app_i {A} (l1 l2 : list A) : NoDup l1 -> NoDup l2 -> (forall x, In x l1 -> In x l2 -> False) -> NoDup (l1 ++ l2).
Proof.
  induction l1 as [|x l1 IH]; intros N1 N2 D; [exact N2|]. inversion N1; subst. cbn. constructor.
  - intro H. apply in_app_or in H. destruct H as [H|H]; [contradiction|apply (D x); [now left|exact H]].
  - apply IH; auto. intros y Hy. apply D. now right.
Qed.
Lemma NoDup_app_l {A} (l1 l2 : list A) : NoDup (l1 ++ l2) -> NoDup l1.
Proof.
  induction l1 as [|x l1 IH]; intros N; [constructor|]. cbn in N. inversion N; subst. constructor; auto.
  intro H. apply H1. apply in_or_app. now left.
Qed.
Lemma rev_snoc {A} (l : list A) x : rev (l ++ [x]) = x :: rev l.
Proof. now rewrite rev_app_distr. Qed.

Lemma rev_concat {A} (ls : list (list A)) : rev (concat ls) = concat (map (@rev A) (rev ls)).
Proof.
  induction ls as [|l ls IH]; [reflexivity|]. cbn [concat rev].
  now rewrite rev_app_distr, IH, map_app, concat_app; cbn; rewrite app_nil_r.
Qed.

Definition work (todo : list gprim) : list nat :=
  concat (map (fun p => rev (leaves (gp_shape p))) (rev todo)).

Lemma work_snoc l p : work (l ++ [p]) = rev (leaves (gp_shape p)) ++ work l.
Proof. unfold work. now rewrite rev_snoc. Qed.

Lemma work_app l cs : work (l ++ cs) = rev (concat (map (fun p => leaves (gp_shape p)) cs)) ++ work l.
Proof.
  unfold work. rewrite rev_app_distr, map_app, concat_app. f_equal.
  rewrite rev_concat, <- map_rev, map_map. reflexivity.
Qed.

Lemma full_refine_loop_spec m a : forall fuel todo refined next,
  nodes_of todo <= fuel -> Forall (fun p => gp_mat p = m /\ gp_light p = a) todo ->
  exists out next', full_refine_loop fuel todo refined next = Some (refined ++ out, next') /\
    next <= next' /\
    map (fun p => leaf_name (gp_shape p)) out = work todo /\
    Forall (fun p => shp_can_intersect (gp_shape p) = true /\ gp_mat p = m /\ gp_light p = a) out /\
    (forall used, NoDup (used ++ map gp_id todo) -> (forall i, In i (used ++ map gp_id todo) -> i < next) ->
       NoDup (used ++ map gp_id out) /\ forall i, In i (used ++ map gp_id out) -> i < next').
Proof.
  induction fuel as [|fuel IH]; intros todo refined next Hn HF.
  - destruct (rev todo) as [|p l] eqn:E.
    + assert (todo = []) by (rewrite <- (rev_involutive todo), E; reflexivity). subst.
      exists [], next. cbn. rewrite app_nil_r. repeat split; auto.
    + exfalso. assert (todo = rev l ++ [p]) by (rewrite <- (rev_involutive todo), E; reflexivity). subst.
      rewrite nodes_app in Hn. unfold nodes_of in Hn at 2. cbn in Hn. destruct (gp_shape p); cbn in Hn; lia.
  - destruct (rev todo) as [|p l] eqn:E.
    + assert (todo = []) by (rewrite <- (rev_involutive todo), E; reflexivity). subst.
      exists [], next. cbn. rewrite app_nil_r. repeat split; auto.
    + cbn [full_refine_loop]. rewrite E.
      assert (Ht : todo = rev l ++ [p]) by (rewrite <- (rev_involutive todo), E; reflexivity).
      clear E. set (l0 := rev l) in *. clearbody l0. clear l. subst todo.
      rewrite nodes_app in Hn. unfold nodes_of in Hn at 2. cbn in Hn.
      apply Forall_app in HF. destruct HF as [HF Hp]. apply Forall_inv in Hp.
      rewrite work_snoc.
      destruct (gp_shape p) as [s|s subs] eqn:Es; cbn [shp_can_intersect].
      * destruct (IH l0 (refined ++ [p]) next) as (out&n'&E1&Hle&HW&HO&HI); [cbn in Hn; lia|exact HF|].
        exists (p :: out), n'. rewrite E1, <- app_assoc. split; [reflexivity|]. split; [exact Hle|].
        split; [cbn [map]; rewrite Es, HW; reflexivity|].
        split; [constructor; [rewrite Es; now split|exact HO]|].
        intros used ND LT.
        assert (Pm : Permutation (used ++ map gp_id (l0 ++ [p])) ((used ++ [gp_id p]) ++ map gp_id l0)).
        { rewrite map_app, <- app_assoc. apply Permutation_app_head. cbn. apply Permutation_app_comm. }
        destruct (HI (used ++ [gp_id p])) as [A B].
        { eapply Permutation_NoDup; [exact Pm|exact ND]. }
        { intros i Hi. apply LT. eapply Permutation_in; [apply Permutation_sym; exact Pm|exact Hi]. }
        cbn [map]. rewrite <- app_assoc in A, B. cbn in A, B. split; [exact A|exact B].
      * unfold gp_refine. rewrite Es. cbn [shp_refine].
        destruct (gp_refine_loop_spec subs (gp_mat p) (gp_light p) l0 next) as (cs&E1&S1&S2&F1).
        rewrite E1.
        destruct (IH (l0 ++ cs) refined (next + length subs)) as (out&n'&E2&Hle&HW&HO&HI).
        { rewrite nodes_app. cbn in Hn. unfold nodes_of at 2. rewrite <- map_map with (f := gp_shape), S1. lia. }
        { apply Forall_app; split; [exact HF|]. destruct Hp as [<- <-]. exact F1. }
        exists out, n'. split; [exact E2|]. split; [lia|]. split.
        { rewrite HW, work_app. f_equal. cbn [leaves]. f_equal. f_equal.
          rewrite <- map_map with (f := gp_shape), S1. reflexivity. }
        split; [exact HO|]. intros used ND LT. apply HI.
        -- rewrite map_app, S2, app_assoc. apply NoDup_app_i.
           ++ rewrite map_app, app_assoc in ND. apply NoDup_app_l in ND. exact ND.
           ++ apply seq_NoDup.
           ++ intros i Hi Hs. apply in_seq in Hs.
              assert (i < next); [|lia]. apply LT. rewrite map_app, app_assoc. apply in_or_app. now left.
        -- intros i Hi. rewrite map_app, S2, app_assoc in Hi. apply in_app_or in Hi. destruct Hi as [Hi|Hi].
           ++ assert (i < next); [|lia]. apply LT. rewrite map_app, app_assoc. apply in_or_app. now left.
           ++ apply in_seq in Hi. lia.
Qed.

(** The whole of full_refine, from one primitive. *)
Theorem full_refine_main p refined next fuel : shp_nodes (gp_shape p) <= fuel -> gp_id p < next ->
  (forall q, In q refined -> gp_id q < next /\ gp_id q <> gp_id p) -> NoDup (map gp_id refined) ->
  exists out next', full_refine fuel p refined next = Some (refined ++ out, next') /\
    map (fun q => gp_shape q) out = map SLeaf (rev (leaves (gp_shape p))) /\
    Forall (fun q => gp_mat q = gp_mat p /\ gp_light q = gp_light p) out /\
    NoDup (map gp_id (refined ++ out)) /\ (forall q, In q (refined ++ out) -> gp_id q < next').
Proof.
  intros Hn Hid Hr ND.
  destruct (full_refine_loop_spec (gp_mat p) (gp_light p) fuel [p] refined next) as (out&n'&E&Hle&HW&HO&HI).
  { unfold nodes_of. cbn. lia. }
  { repeat constructor. }
  exists out, n'. split; [exact E|]. split.
  { unfold work in HW. cbn in HW. rewrite app_nil_r in HW. rewrite <- HW, map_map.
    apply map_ext_in. intros q Hq. rewrite Forall_forall in HO. destruct (HO q Hq) as [C _].
    destruct (gp_shape q); [reflexivity|discriminate]. }
  split.
  { eapply Forall_impl; [|exact HO]. cbn. tauto. }
  destruct (HI (map gp_id refined)) as [A B].
  { cbn. apply NoDup_app_i; [exact ND|repeat constructor; auto|].
    intros x Hx [<-|[]]. apply in_map_iff in Hx. destruct Hx as (q&Eq&Hq). apply Hr in Hq. lia. }
  { intros i Hi. apply in_app_or in Hi. destruct Hi as [Hi|[<-|[]]]; [|exact Hid].
    apply in_map_iff in Hi. destruct Hi as (q&<-&Hq). now apply Hr in Hq. }
  rewrite map_app. split; [exact A|]. intros q Hq. apply B. rewrite <- map_app. now apply in_map.
Qed.
