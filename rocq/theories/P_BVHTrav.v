(** Proofs about BVH traversal. *)
From Coq Require Import Reals Lra Lia List Bool ZArith Arith Permutation Psatz.
From Verif Require Import Base M_Geometry S_Geometry P_Geometry M_BVH S_BVH P_BVH.
Import ListNotations.
Open Scope R_scope.

Lemma ele_elt_trans a b c : ele a b -> elt b c -> elt a c.
Proof.
  unfold ele, elt; destruct a, b, c; cbn; intros; auto; try discriminate. Rb. apply Rltb_true; lra.
Qed.
Lemma elt_ele_trans a b c : elt a b -> ele b c -> elt a c.
Proof.
  unfold ele, elt; destruct a, b, c; cbn; intros; auto; try discriminate. Rb. apply Rltb_true; lra.
Qed.

(** ** the specialised slab test *)
Lemma slab_axis lo hi o d nz : lo <= hi -> (d = 0 -> nz = false) ->
  (forall t, lo <= o + t * d <= hi <->
     (slab_lo lo hi o d nz = NaN \/ ele (slab_lo lo hi o d nz) (Fin t)) /\
     (slab_hi lo hi o d nz = NaN \/ ele (Fin t) (slab_hi lo hi o d nz))) /\
  (slab_lo lo hi o d nz = NaN -> d = 0 /\ o = lo) /\ (slab_hi lo hi o d nz = NaN -> d = 0 /\ o = hi).
Proof.
  intros Hlh Hnz. unfold slab_lo, slab_hi, inv_comp, edivz.
  destruct (Reqb d 0) eqn:D; Rb.
  - subst d. rewrite Hnz by auto.
    assert (Rltb 0 0 = false) as -> by (apply Rltb_false; lra).
    assert (Reqb 1 0 = false) as -> by (apply Reqb_false; lra).
    assert (Rltb 0 1 = true) as -> by (apply Rltb_true; lra). cbn [xorb emul].
    unfold esgn_inf.
    assert (St : forall t, o + t * 0 = o) by (intros; ring).
    destruct (Reqb (lo - o) 0) eqn:A; destruct (Reqb (hi - o) 0) eqn:B; Rb.
    + split; [|split; intros; split; auto; lra]. intros t. rewrite St. split; [tauto|intros; lra].
    + assert (Rltb 0 (hi - o) = true) as -> by (apply Rltb_true; lra). cbn.
      split; [|split; [intros; split; auto; lra|discriminate]].
      intros t. rewrite St. split; [intros; split; [now left|right; reflexivity]|intros; lra].
    + assert (Rltb 0 (lo - o) = false) as -> by (apply Rltb_false; lra). cbn.
      split; [|split; [discriminate|intros; split; auto; lra]].
      intros t. rewrite St. split; [intros; split; [right; reflexivity|now left]|intros; lra].
    + destruct (Rltb 0 (lo - o)) eqn:C1; destruct (Rltb 0 (hi - o)) eqn:C2; Rb; cbn; try lra;
      (split; [|split; discriminate]); intros t; rewrite St;
      (split; [intros; first [lra|split; right; reflexivity]
              |intros [[?|A'] [?|B']]; try discriminate; lra]).
  - cbn [emul]. split; [|split; discriminate]. intros t. rewrite !ele_Fin.
    destruct (Rltb d 0) eqn:C; Rb.
    + assert (Q1 : (hi - o) * (1 / d) * d = hi - o) by (field; lra).
      assert (Q2 : (lo - o) * (1 / d) * d = lo - o) by (field; lra).
      split; [intros; split; right; nra|].
      intros [[?|A'] [?|B']]; try discriminate. nra.
    + assert (Q1 : (hi - o) * (1 / d) * d = hi - o) by (field; lra).
      assert (Q2 : (lo - o) * (1 / d) * d = lo - o) by (field; lra).
      assert (0 < d) by lra.
      split; [intros; split; right; nra|].
      intros [[?|A'] [?|B']]; try discriminate. nra.
Qed.

Lemma between_le lo p hi : between lo p hi -> vle lo hi.
Proof. unfold between, vle. intros; lra. Qed.

Lemma upd_le a b t : ele a (Fin t) -> (b = NaN \/ ele b (Fin t)) ->
  ele (if eltb a b then b else a) (Fin t).
Proof. intros A [->|B]; [destruct a; exact A|destruct (eltb a b); auto]. Qed.
Lemma upd_ge a b t : ele (Fin t) a -> (b = NaN \/ ele (Fin t) b) ->
  ele (Fin t) (if eltb b a then b else a).
Proof. intros A [->|B]; [exact A|destruct (eltb b a); auto]. Qed.
Lemma no_reject a b t : (a = NaN \/ ele (Fin t) a) -> (b = NaN \/ ele b (Fin t)) -> eltb a b = false.
Proof.
  intros [->|A] [->|B]; try reflexivity.
  - destruct a; reflexivity.
  - destruct (eltb a b) eqn:C; auto. exfalso. apply (elt_not_ele _ _ C). eapply ele_trans; eauto.
Qed.

Lemma bvh_box_test_conservative lo hi r t : pos_zero r -> off_x_faces r lo hi ->
  between lo (ray_at r t) hi -> elt (rmint r) (Fin t) -> elt (Fin t) (rmaxt r) ->
  bvh_box_test lo hi r = true.
Proof.
  intros (Zx&Zy&Zz) Hx Hb Hmin Hmax.
  destruct (between_le _ _ _ Hb) as (L1&L2&L3).
  apply between_ray in Hb. destruct Hb as (Bx&By&Bz).
  destruct (slab_axis (vx lo) (vx hi) (vx (ro r)) (vx (rd r)) (vx (rdz r)) L1 Zx) as (X&Xl&Xh).
  destruct (slab_axis (vy lo) (vy hi) (vy (ro r)) (vy (rd r)) (vy (rdz r)) L2 Zy) as (Y&_&_).
  destruct (slab_axis (vz lo) (vz hi) (vz (ro r)) (vz (rd r)) (vz (rdz r)) L3 Zz) as (Z&_&_).
  unfold bvh_box_test. cbn [vnth].
  set (sx := slab_lo (vx lo) (vx hi) _ _ _) in *. set (ex := slab_hi (vx lo) (vx hi) _ _ _) in *.
  set (sy := slab_lo (vy lo) (vy hi) _ _ _) in *. set (ey := slab_hi (vy lo) (vy hi) _ _ _) in *.
  set (sz := slab_lo (vz lo) (vz hi) _ _ _) in *. set (ez := slab_hi (vz lo) (vz hi) _ _ _) in *.
  apply X in Bx. apply Y in By. apply Z in Bz. destruct By as [Sy Ey], Bz as [Sz Ez].
  assert (Sx : ele sx (Fin t)).
  { destruct Bx as [[N|?] _]; auto. destruct (Xl N) as [D O]. destruct (Hx D); contradiction. }
  assert (Ex : ele (Fin t) ex).
  { destruct Bx as [_ [N|?]]; auto. destruct (Xh N) as [D O]. destruct (Hx D); contradiction. }
  rewrite (no_reject ey sx t), (no_reject ex sy t) by auto. cbn [orb].
  pose proof (upd_le sx sy t Sx Sy) as Sxy. pose proof (upd_ge ex ey t Ex Ey) as Exy.
  set (mn := if eltb sx sy then sy else sx) in *. set (mx := if eltb ey ex then ey else ex) in *.
  rewrite (no_reject ez mn t), (no_reject mx sz t) by auto. cbn [orb].
  pose proof (upd_le mn sz t Sxy Sz) as S3. pose proof (upd_ge mx ez t Exy Ez) as E3.
  apply andb_true_iff. split.
  - exact (ele_elt_trans _ _ _ S3 Hmax).
  - exact (elt_ele_trans _ _ _ Hmin E3).
Qed.

(** ** traversal *)
Lemma describes_bounds_finite t ps off : describes t ps off ->
  exists lo hi, tbounds t = fbox lo hi /\
    (forall p, In p ps -> vle lo (bp_lo p) /\ vle (bp_hi p) hi) /\
    (exists p, In p ps /\ vx lo = vx (bp_lo p)) /\ (exists p, In p ps /\ vx hi = vx (bp_hi p)).
Proof.
  intros H. rewrite (describes_bounds _ _ _ H).
  apply bounds_of_finite. eapply describes_nonempty; eauto.
Qed.

Lemma box_test_fbox lo hi r : box_test (fbox lo hi) r = bvh_box_test lo hi r.
Proof. unfold box_test, fbox, vmap; cbn. destruct lo, hi; reflexivity. Qed.

Lemma tree_test_conservative t ps off r p tt : describes t ps off -> pos_zero r ->
  (forall q, In q ps -> off_x_faces r (bp_lo q) (bp_hi q)) ->
  In p ps -> between (bp_lo p) (ray_at r tt) (bp_hi p) ->
  elt (rmint r) (Fin tt) -> elt (Fin tt) (rmaxt r) ->
  box_test (tbounds t) r = true.
Proof.
  intros HD HZ HF Hp Hb H1 H2.
  destruct (describes_bounds_finite _ _ _ HD) as (lo&hi&->&Hc&(q1&Hq1&E1)&(q2&Hq2&E2)).
  rewrite box_test_fbox. apply bvh_box_test_conservative with tt; auto.
  - intros Z. rewrite E1, E2. destruct (HF q1 Hq1 Z), (HF q2 Hq2 Z). auto.
  - destruct (Hc p Hp) as [[A1 [A2 A3]] [B1 [B2 B3]]].
    unfold between, vle in *. lra.
Qed.

Section Trav.
  Variable surf : nat -> R -> Prop.
  Variable ps : list bprim.
  Variable r0 : ray.
  Hypothesis Hpz : pos_zero r0.
  Hypothesis Hfaces : forall q, In q ps -> off_x_faces r0 (bp_lo q) (bp_hi q).
  Hypothesis Hin : forall i t, (i < length ps)%nat -> surf i t ->
    between (bp_lo (nth i ps dflt)) (ray_at r0 t) (bp_hi (nth i ps dflt)).
  Hypothesis Hmax : notnan (rmaxt r0).

  (** tree [t] covers positions [off, off+len) of the ordered list *)
  Definition covers_range (t : tree) (off : nat) : Prop :=
    exists l, describes t l off /\ (off + length l <= length ps)%nat /\
      (forall j, (j < length l)%nat -> nth j l dflt = nth (off + j) ps dflt).

  Definition in_range (t : tree) (off i : nat) : Prop :=
    exists l, describes t l off /\ (off <= i < off + length l)%nat.

  Lemma describes_len t : forall l l' off, describes t l off -> describes t l' off -> length l = length l'.
  Proof.
    induction t as [b f n|b ax c0 IH0 c1 IH1]; intros l l' off H H'.
    - inversion H; inversion H'; subst. congruence.
    - inversion H; inversion H'; subst. rewrite !app_length.
      match goal with A : describes c0 ?a off, B : describes c0 ?b off |- _ =>
        pose proof (IH0 _ _ _ A B) as Q end. rewrite Q in *.
      match goal with A : describes c1 ?a _, B : describes c1 ?b _ |- _ =>
        pose proof (IH1 _ _ _ A B) as Q1 end. lia.
  Qed.

  Definition state_ok (pending : nat -> Prop) (st : ray * option nat) : Prop :=
    let '(r, h) := st in
    r = ray_set_maxt r0 (rmaxt r) /\ notnan (rmaxt r) /\
    match h with
    | None => rmaxt r = rmaxt r0
    | Some i => (i < length ps)%nat /\ exists t, rmaxt r = Fin t /\ surf i t /\
                 ele (rmint r0) (Fin t) /\ ele (Fin t) (rmaxt r0)
    end /\
    ele (rmaxt r) (rmaxt r0) /\
    (forall i t, (i < length ps)%nat -> surf i t -> elt (rmint r0) (Fin t) -> elt (Fin t) (rmaxt r0) ->
       ~ pending i -> ele (rmaxt r) (Fin t)).

  Lemma state_ok_weaken (P Q : nat -> Prop) st : (forall i, P i -> Q i) -> state_ok P st -> state_ok Q st.
  Proof.
    intros H. destruct st as [r h]. unfold state_ok. intros (A&A'&B&C&D).
    repeat split; auto. intros i t Hi Hs H1 H2 H3. apply (D i t); auto.
  Qed.

  Lemma ray_same r m : r = ray_set_maxt r0 m -> ro r = ro r0 /\ rd r = rd r0 /\ rdz r = rdz r0 /\ rmint r = rmint r0.
  Proof. intros ->. auto. Qed.

  (** rejecting a box discards only primitives that cannot be nearer than the current hit *)
  Lemma reject_ok t off (P : nat -> Prop) st : covers_range t off ->
    state_ok P st -> box_test (tbounds t) (fst st) = false ->
    state_ok (fun i => P i /\ ~ in_range t off i) st.
  Proof.
    intros (l&HD&Hlen&Hnth). destruct st as [r h]. intros (A&A'&B&C&D) HT. cbn [fst] in HT.
    split; auto. split; auto. split; auto. split; auto.
    intros i tt Hi Hs H1 H2 H3.
    destruct (ele_total (rmaxt r) (Fin tt)) as [G|G]; auto; [discriminate|].
    destruct (ele_total (Fin tt) (rmaxt r)) as [G'|G']; auto; [discriminate|].
    destruct (eltb (Fin tt) (rmaxt r)) eqn:LT.
    2:{ apply eltb_false_ele; auto. discriminate. }
    apply (D i tt); auto. intros HP. apply H3. split; auto.
    intros (l'&HD'&Hr). rewrite (describes_len _ _ _ _ HD' HD) in Hr.
    destruct (ray_same _ _ A) as (Ro&Rd&Rdz&Rm).
    assert (T : box_test (tbounds t) r = true); [|congruence].
    apply (tree_test_conservative t l off r (nth i ps dflt) tt); auto.
    - unfold pos_zero. rewrite Rd, Rdz. exact Hpz.
    - intros q Hq. unfold off_x_faces. rewrite Rd, Ro. apply Hfaces.
      apply In_nth with (d := dflt) in Hq. destruct Hq as (j&Hj&<-). rewrite Hnth by auto.
      apply nth_In. lia.
    - replace i with (off + (i - off))%nat by lia. rewrite <- Hnth by lia. apply nth_In. lia.
    - unfold ray_at. rewrite Ro, Rd. apply Hin; auto.
    - rewrite Rm. auto.
  Qed.

  Variable pi : prim_isect.
  Hypothesis Hpi : nearest_contract surf pi r0.

  Lemma leaf_ok : forall is (P : nat -> Prop) st, (forall i, In i is -> (i < length ps)%nat) ->
    state_ok P st -> state_ok (fun i => P i /\ ~ In i is) (leaf_loop pi is st).
  Proof.
    induction is as [|i is IH]; intros P st Hlt H; cbn [leaf_loop].
    - eapply state_ok_weaken; [|exact H]. intros; split; auto.
    - destruct st as [r h]. cbn [fst].
      assert (H' := H). destruct H as (A&A'&B&C&D).
      pose proof (Hpi i (rmaxt r) A') as K. rewrite <- A in K. cbn zeta in K.
      destruct (ray_same _ _ A) as (Ro&Rd&Rdz&Rm).
      assert (Hi : (i < length ps)%nat) by (apply Hlt; now left).
      destruct (pi i r) as [t|].
      + destruct K as (K1&K2&K3&K4). rewrite Rm in *.
        assert (N : state_ok (fun j => P j /\ j <> i) (ray_set_maxt r (Fin t), Some i)).
        { unfold state_ok. cbn [rmaxt ray_set_maxt].
          split; [rewrite A; reflexivity|]. split; [discriminate|].
          split; [split; auto; exists t; repeat split; auto; eapply ele_trans; eauto|].
          split; [eapply ele_trans; eauto|].
          intros j tt Hj Hs H1 H2 H3. destruct (Nat.eq_dec j i) as [->|Hne].
          - apply ele_Fin. apply K4; auto. now apply elt_ele.
          - eapply ele_trans; [exact K3|]. apply (D j tt); auto. }
        eapply state_ok_weaken; [|apply (IH _ _ ltac:(intros; apply Hlt; now right) N)].
        cbn. intros j [[Pj Hj] Hn]. split; auto. intros [->|?]; auto.
      + assert (N : state_ok (fun j => P j /\ j <> i) (r, h)).
        { unfold state_ok. repeat split; auto.
          intros j tt Hj Hs H1 H2 H3. destruct (Nat.eq_dec j i) as [->|Hne]; [|apply (D j tt); auto].
          destruct (ele_total (rmaxt r) (Fin tt)) as [G|G]; auto; [discriminate|].
          exfalso. apply (K tt); auto. rewrite Rm. now apply elt_ele. }
        eapply state_ok_weaken; [|apply (IH _ _ ltac:(intros; apply Hlt; now right) N)].
        cbn. intros j [[Pj Hj] Hn]. split; auto. intros [->|?]; auto.
  Qed.

  Variable nodes : list lnode.

  (** pending work: (array index, tree, offset in ordered list) *)
  Definition item := (nat * tree * nat)%type.
  Definition it_ok (it : item) : Prop :=
    let '(j, t, off) := it in laid_out nodes j t /\ covers_range t off.
  Definition it_pending (it : item) (i : nat) : Prop := let '(_, t, off) := it in in_range t off i.
  Definition it_size (it : item) : nat := let '(_, t, _) := it in tsize t.
  Definition it_height (it : item) : nat := let '(_, t, _) := it in theight t.
  Definition it_idx (it : item) : nat := let '(j, _, _) := it in j.

  Fixpoint stack_fits (stk : list item) : Prop :=
    match stk with
    | [] => True
    | it :: stk' => (length stk' + it_height it <= 64)%nat /\ stack_fits stk'
    end.
  Definition pending (its : list item) (i : nat) : Prop := exists it, In it its /\ it_pending it i.
  Fixpoint total_size (its : list item) : nat :=
    match its with [] => 0 | it :: l => it_size it + total_size l end%nat.

  Lemma child_ranges b ax c0 c1 off : covers_range (Node b ax c0 c1) off ->
    exists off1, covers_range c0 off /\ covers_range c1 off1 /\
      (forall i, in_range (Node b ax c0 c1) off i -> in_range c0 off i \/ in_range c1 off1 i).
  Proof.
    intros (l&HD&Hlen&Hnth). inversion HD; subst.
    exists (off + length ps0)%nat. rewrite app_length in *.
    split; [|split].
    - exists ps0. split; auto. split; [lia|]. intros j Hj. rewrite <- Hnth by lia. now rewrite app_nth1.
    - exists ps1. split; auto. split; [lia|]. intros j Hj.
      replace (off + length ps0 + j)%nat with (off + (length ps0 + j))%nat by lia.
      rewrite <- Hnth by lia. rewrite app_nth2 by lia. f_equal. lia.
    - intros i (l'&HD'&Hi). rewrite (describes_len _ _ _ _ HD' HD), app_length in Hi.
      destruct (le_lt_dec (off + length ps0) i).
      + right. exists ps1. split; auto. lia.
      + left. exists ps0. split; auto. lia.
  Qed.

  Lemma tsize_pos t : (0 < tsize t)%nat. Proof. destruct t; cbn; lia. Qed.

  Lemma traverse_ok : forall fuel it stk st,
    Forall it_ok (it :: stk) -> stack_fits (it :: stk) -> (total_size (it :: stk) <= fuel)%nat ->
    state_ok (pending (it :: stk)) st ->
    exists st', traverse fuel pi nodes (it_idx it) (map it_idx stk) st = Ok (Some st') /\
      state_ok (fun _ => False) st'.
  Proof.
    induction fuel as [|f IH]; intros [[j t] off] stk st Hok Hfit Hsz Hst.
    { cbn in Hsz. pose proof (tsize_pos t). lia. }
    inversion Hok as [|? ? Hit Hok']; subst. destruct Hit as [Hlay Hcov]. cbn [it_idx].
    (* popping: the current item is finished *)
    assert (POP : forall st1, state_ok (fun i => pending ((j, t, off) :: stk) i /\ ~ in_range t off i) st1 ->
      exists st', match map it_idx stk with
                  | [] => Ok (Some st1)
                  | j0 :: todo' => traverse f pi nodes j0 todo' st1
                  end = Ok (Some st') /\ state_ok (fun _ => False) st').
    { intros st1 H1. destruct stk as [|it' stk'].
      - exists st1. split; auto. eapply state_ok_weaken; [|exact H1].
        intros i [(it&[<-|[]]&Hp) Hn]. exact (Hn Hp).
      - cbn [map]. apply IH; auto.
        + destruct Hfit; auto.
        + cbn in Hsz |- *. pose proof (tsize_pos t). lia.
        + eapply state_ok_weaken; [|exact H1].
          intros i [(it&[<-|Hit]&Hp) Hn]; [contradiction|]. exists it; auto. }
    destruct t as [b first n|b ax c0 c1]; cbn [traverse].
    - cbn in Hlay. rewrite Hlay. cbn [l_bounds l_nprim l_offset].
      destruct (box_test b (fst st)) eqn:BT.
      + assert (HD := Hcov). destruct HD as (l&HD&Hlen&Hnth).
        inversion HD; subst.
        assert (Hpos : (0 < length l)%nat) by (destruct l; cbn; [congruence|lia]).
        apply Nat.ltb_lt in Hpos as Hpos'. rewrite Hpos'.
        apply POP.
        eapply state_ok_weaken; [|apply leaf_ok; [|exact Hst]].
        * cbn beta. intros i [Hp Hn]. split; auto. intros (l'&HD'&Hr).
          rewrite (describes_len _ _ _ _ HD' HD) in Hr. apply Hn. apply in_seq. lia.
        * intros i Hi. apply in_seq in Hi. lia.
      + apply POP. apply (reject_ok (Leaf b first n) off); auto.
    - cbn in Hlay. destruct Hlay as (Hn&L0&L1). rewrite Hn. cbn [l_bounds l_nprim l_offset l_axis].
      destruct (box_test b (fst st)) eqn:BT; [|apply POP; apply (reject_ok (Node b ax c0 c1) off); auto].
      change (0 <? 0)%nat with false. cbn iota.
      destruct (child_ranges _ _ _ _ _ Hcov) as (off1&C0&C1&Hsplit).
      cbn [stack_fits it_height theight] in Hfit. destruct Hfit as [Hh Hfit].
      destruct (Nat.leb_spec 64 (length (map it_idx stk))) as [Hfull|_].
      { rewrite map_length in Hfull. lia. }
      cbn [total_size it_size tsize] in Hsz.
      destruct (Rltb _ 0).
      + apply (IH (S j + tsize c0, c1, off1)%nat ((S j, c0, off) :: stk) st).
        * constructor; [split; auto|constructor; [split; auto|auto]].
        * cbn [stack_fits it_height length]. lia || (repeat split; auto; lia).
        * cbn. lia.
        * eapply state_ok_weaken; [|exact Hst]. intros i (it&[<-|Hit]&Hp).
          -- destruct (Hsplit i Hp); [exists (S j, c0, off)|exists (S j + tsize c0, c1, off1)%nat]; cbn; auto.
          -- exists it. cbn; auto.
      + apply (IH (S j, c0, off) ((S j + tsize c0, c1, off1)%nat :: stk) st).
        * constructor; [split; auto|constructor; [split; auto|auto]].
        * cbn [stack_fits it_height length]. lia || (repeat split; auto; lia).
        * cbn. lia.
        * eapply state_ok_weaken; [|exact Hst]. intros i (it&[<-|Hit]&Hp).
          -- destruct (Hsplit i Hp); [exists (S j, c0, off)|exists (S j + tsize c0, c1, off1)%nat]; cbn; auto.
          -- exists it. cbn; auto.
  Qed.

  (** predicate version *)
  Variable pp : nat -> ray -> bool.
  Hypothesis Hpp : any_contract surf pp r0.

  Definition none_yet (pending : nat -> Prop) : Prop :=
    forall i t, (i < length ps)%nat -> surf i t -> elt (rmint r0) (Fin t) -> elt (Fin t) (rmaxt r0) -> pending i.

  Definition p_result (b : bool) : Prop :=
    if b then exists i t, (i < length ps)%nat /\ surf i t /\ ele (rmint r0) (Fin t) /\ ele (Fin t) (rmaxt r0)
    else none_yet (fun _ => False).

  Lemma traverse_p_ok : forall fuel it stk,
    Forall it_ok (it :: stk) -> stack_fits (it :: stk) -> (total_size (it :: stk) <= fuel)%nat ->
    none_yet (pending (it :: stk)) ->
    exists b, traverse_p fuel pp nodes (it_idx it) (map it_idx stk) r0 = Ok (Some b) /\ p_result b.
  Proof.
    induction fuel as [|f IH]; intros [[j t] off] stk Hok Hfit Hsz Hst.
    { cbn in Hsz. pose proof (tsize_pos t). lia. }
    inversion Hok as [|? ? Hit Hok']; subst. destruct Hit as [Hlay Hcov]. cbn [it_idx].
    assert (POP : none_yet (fun i => pending ((j, t, off) :: stk) i /\ ~ in_range t off i) ->
      exists b, match map it_idx stk with
                  | [] => Ok (Some false)
                  | j0 :: todo' => traverse_p f pp nodes j0 todo' r0
                  end = Ok (Some b) /\ p_result b).
    { intros H1. destruct stk as [|it' stk'].
      - exists false. split; auto. intros i tt A B C D.
        destruct (H1 i tt A B C D) as [(it&[<-|[]]&Hp) Hn]. exact (Hn Hp).
      - cbn [map]. apply IH; auto.
        + destruct Hfit; auto.
        + cbn in Hsz |- *. pose proof (tsize_pos t). lia.
        + intros i tt A B C D. destruct (H1 i tt A B C D) as [(it&[<-|Hit]&Hp) Hn]; [contradiction|].
          exists it; auto. }
    assert (REJ : box_test (tbounds t) r0 = false ->
       none_yet (fun i => pending ((j, t, off) :: stk) i /\ ~ in_range t off i)).
    { intros BT i tt A B C D. split; [exact (Hst i tt A B C D)|].
      intros (l'&HD'&Hr). destruct Hcov as (l&HD&Hlen&Hnth).
      rewrite (describes_len _ _ _ _ HD' HD) in Hr.
      assert (T : box_test (tbounds t) r0 = true); [|congruence].
      apply (tree_test_conservative t l off r0 (nth i ps dflt) tt); auto.
      - intros q Hq. apply Hfaces.
        apply In_nth with (d := dflt) in Hq. destruct Hq as (k&Hk&<-). rewrite Hnth by auto.
        apply nth_In. lia.
      - replace i with (off + (i - off))%nat by lia. rewrite <- Hnth by lia. apply nth_In. lia. }
    destruct t as [b first n|b ax c0 c1]; cbn [traverse_p].
    - cbn in Hlay. rewrite Hlay. cbn [l_bounds l_nprim l_offset].
      destruct (box_test b r0) eqn:BT; [|apply POP, REJ, BT].
      assert (HD := Hcov). destruct HD as (l&HD&Hlen&Hnth).
      inversion HD; subst.
      assert (Hpos : (0 < length l)%nat) by (destruct l; cbn; [congruence|lia]).
      apply Nat.ltb_lt in Hpos as Hpos'. rewrite Hpos'.
      destruct (existsb _ _) eqn:EX.
      + exists true. split; auto. apply existsb_exists in EX. destruct EX as (i&Hi&Hp).
        apply in_seq in Hi. apply Hpp in Hp. destruct Hp as (tt&A&B&C).
        exists i, tt. repeat split; auto. lia.
      + apply POP. intros i tt A B C D. split; [exact (Hst i tt A B C D)|].
        intros (l'&HD'&Hr). rewrite (describes_len _ _ _ _ HD' HD) in Hr.
        assert (X : existsb (fun i => pp i r0) (seq off (length l)) = true); [|congruence].
        apply existsb_exists. exists i. split; [apply in_seq; lia|].
        apply Hpp. exists tt. repeat split; auto using elt_ele.
    - cbn in Hlay. destruct Hlay as (Hn&L0&L1). rewrite Hn. cbn [l_bounds l_nprim l_offset l_axis].
      destruct (box_test b r0) eqn:BT; [|apply POP, REJ, BT].
      change (0 <? 0)%nat with false. cbn iota.
      destruct (child_ranges _ _ _ _ _ Hcov) as (off1&C0&C1&Hsplit).
      cbn [stack_fits it_height theight] in Hfit. destruct Hfit as [Hh Hfit].
      destruct (Nat.leb_spec 64 (length (map it_idx stk))) as [Hfull|_].
      { rewrite map_length in Hfull. lia. }
      cbn [total_size it_size tsize] in Hsz.
      destruct (Rltb _ 0).
      + apply (IH (S j + tsize c0, c1, off1)%nat ((S j, c0, off) :: stk)).
        * constructor; [split; auto|constructor; [split; auto|auto]].
        * cbn [stack_fits it_height length]. repeat split; auto; lia.
        * cbn. lia.
        * intros i tt A B C D. destruct (Hst i tt A B C D) as (it&[<-|Hit]&Hp).
          -- destruct (Hsplit i Hp); [exists (S j, c0, off)|exists (S j + tsize c0, c1, off1)%nat]; cbn; auto.
          -- exists it. cbn; auto.
      + apply (IH (S j, c0, off) ((S j + tsize c0, c1, off1)%nat :: stk)).
        * constructor; [split; auto|constructor; [split; auto|auto]].
        * cbn [stack_fits it_height length]. repeat split; auto; lia.
        * cbn. lia.
        * intros i tt A B C D. destruct (Hst i tt A B C D) as (it&[<-|Hit]&Hp).
          -- destruct (Hsplit i Hp); [exists (S j, c0, off)|exists (S j + tsize c0, c1, off1)%nat]; cbn; auto.
          -- exists it. cbn; auto.
  Qed.
End Trav.

Lemma covers_root t ps : describes t ps 0 -> covers_range ps t 0.
Proof. intros H. exists ps. repeat split; auto. Qed.

Lemma traverse_nearest (surf : nat -> R -> Prop) t ps nodes r0 pi fuel : (tsize t <= fuel)%nat ->
  describes t ps 0 -> laid_out nodes 0 t -> (theight t <= 64)%nat ->
  pos_zero r0 -> (forall q, In q ps -> off_x_faces r0 (bp_lo q) (bp_hi q)) -> notnan (rmaxt r0) ->
  (forall i tt, (i < length ps)%nat -> surf i tt ->
    between (bp_lo (nth i ps dflt)) (ray_at r0 tt) (bp_hi (nth i ps dflt))) ->
  nearest_contract surf pi r0 ->
  exists r' hit, traverse fuel pi nodes 0 [] (r0, None) = Ok (Some (r', hit)) /\
    nearest_hit surf (length ps) r0 r' hit.
Proof.
  intros HFu HD HL HH HZ HF HM HI HC.
  destruct (traverse_ok surf ps r0 HZ HF HI pi HC nodes fuel (0%nat, t, 0%nat) [] (r0, None))
    as ([r' hit]&HT&HS).
  - repeat constructor; auto. now apply covers_root.
  - cbn. lia.
  - cbn. lia.
  - cbn. split; [destruct r0; reflexivity|]. split; auto. split; auto. split; [now apply ele_refl|].
    intros i tt Hi Hs H1 H2 H3. exfalso. apply H3. exists (0%nat, t, 0%nat). split; [now left|].
    exists ps. split; auto. lia.
  - exists r', hit. split; [exact HT|].
    destruct HS as (A&A'&B&C&D). destruct hit as [i|]; cbn.
    + destruct B as (Hi&tt&B1&B2&B3&B4). split; auto. exists tt.
      split; [congruence|]. repeat split; auto.
      intros j t' Hj Hs Hm. rewrite B1 in D.
      destruct (eltb (Fin t') (rmaxt r0)) eqn:LT.
      * apply ele_Fin. apply (D j t'); auto.
      * apply eltb_false_ele in LT; auto; [|discriminate]. apply ele_Fin. eapply ele_trans; eauto.
    + split.
      * rewrite A, B. destruct r0; reflexivity.
      * intros i tt Hi Hs H1 H2. specialize (D i tt Hi Hs H1 H2 (fun x => x)). rewrite B in D.
        apply (elt_not_ele _ _ H2 D).
Qed.

Lemma traverse_p_any (surf : nat -> R -> Prop) t ps nodes r0 pp fuel : (tsize t <= fuel)%nat ->
  describes t ps 0 -> laid_out nodes 0 t -> (theight t <= 64)%nat ->
  pos_zero r0 -> (forall q, In q ps -> off_x_faces r0 (bp_lo q) (bp_hi q)) -> 
  (forall i tt, (i < length ps)%nat -> surf i tt ->
    between (bp_lo (nth i ps dflt)) (ray_at r0 tt) (bp_hi (nth i ps dflt))) ->
  any_contract surf pp r0 ->
  exists b, traverse_p fuel pp nodes 0 [] r0 = Ok (Some b) /\ p_result surf ps r0 b.
Proof.
  intros HFu HD HL HH HZ HF HI HC.
  apply (traverse_p_ok surf ps r0 HZ HF HI nodes pp HC fuel (0%nat, t, 0%nat) []).
  - repeat constructor; auto. now apply covers_root.
  - cbn. lia.
  - cbn. lia.
  - intros i tt Hi Hs H1 H2. exists (0%nat, t, 0%nat). split; [now left|].
    exists ps. split; auto. lia.
Qed.

Lemma height_lt_prims t ps off : describes t ps off -> (theight t < length ps)%nat.
Proof.
  induction 1 as [ps off Hne|ax c0 c1 ps0 ps1 off H0 IH0 H1 IH1]; cbn.
  - destruct ps; cbn; [congruence|lia].
  - rewrite app_length. lia.
Qed.
