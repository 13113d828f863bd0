(** Proofs about the film. *)
From Coq Require Import Reals Lra Lia List ZArith Bool Permutation Psatz.
From Verif Require Import Base M_Film S_Film.
Import ListNotations.
Open Scope R_scope.

Lemma replace_nth_length {A} k (a : A) l : length (replace_nth k a l) = length l.
Proof. revert k; induction l; destruct k; cbn; auto. Qed.
Lemma nth_replace {A} (d a : A) l : forall k j, (k < length l)%nat ->
  nth j (replace_nth k a l) d = if (j =? k)%nat then a else nth j l d.
Proof.
  induction l as [|h l IH]; intros [|k] [|j] H; cbn in *; try lia; auto. rewrite IH by lia. reflexivity.
Qed.
Lemma np_index_in n i : (0 <= i < Z.of_nat n)%Z -> np_index n i = Ok (Z.to_nat i).
Proof. intros. unfold np_index. destruct (Z.leb_spec 0 i), (Z.ltb_spec i (Z.of_nat n)); try lia; reflexivity. Qed.
Lemma get1_in {A} (d : A) l i : (0 <= i < Z.of_nat (length l))%Z -> get1 l i = Ok (nth (Z.to_nat i) l d).
Proof.
  intros. unfold get1. rewrite np_index_in by auto. cbn [bind].
  rewrite (nth_error_nth' l d) by lia. reflexivity.
Qed.
Lemma set1_in {A} l i (a : A) : (0 <= i < Z.of_nat (length l))%Z -> set1 l i a = Ok (replace_nth (Z.to_nat i) a l).
Proof. intros. unfold set1. now rewrite np_index_in. Qed.

Definition rect {A} (m : list (list A)) (nr nc : nat) : Prop :=
  length m = nr /\ forall i, (i < nr)%nat -> length (nth i m []) = nc.
Lemma get2_in {A} (d : A) m nr nc i j : rect m nr nc -> (0 <= i < Z.of_nat nr)%Z -> (0 <= j < Z.of_nat nc)%Z ->
  get2 m i j = Ok (nth (Z.to_nat j) (nth (Z.to_nat i) m []) d).
Proof.
  intros [L R] Hi Hj. unfold get2. rewrite (get1_in [] m) by lia. cbn [bind]. apply get1_in. rewrite R by lia. lia.
Qed.
Lemma set2_in {A} (d : A) m nr nc i j a : rect m nr nc -> (0 <= i < Z.of_nat nr)%Z -> (0 <= j < Z.of_nat nc)%Z ->
  exists m', set2 m i j a = Ok m' /\ rect m' nr nc /\
    forall i' j', (i' < nr)%nat -> (j' < nc)%nat ->
      nth j' (nth i' m' []) d = if ((i' =? Z.to_nat i)%nat && (j' =? Z.to_nat j)%nat)%bool then a else nth j' (nth i' m []) d.
Proof.
  intros [L R] Hi Hj. unfold set2. rewrite (get1_in [] m) by lia. cbn [bind].
  rewrite set1_in by (rewrite R by lia; lia). cbn [bind]. rewrite set1_in by lia.
  eexists. split; [reflexivity|]. split.
  - split; [now rewrite replace_nth_length|]. intros k Hk. rewrite nth_replace by lia.
    destruct (Nat.eqb_spec k (Z.to_nat i)); [rewrite replace_nth_length; apply R; lia|now apply R].
  - intros i' j' Hi' Hj'. rewrite nth_replace by lia. destruct (Nat.eqb_spec i' (Z.to_nat i)) as [->|N]; cbn [andb]; auto.
    rewrite nth_replace by (rewrite R; lia). reflexivity.
Qed.

Lemma rect_table f : rect (make_table f) 16 16.
Proof.
  split; [reflexivity|]. intros i Hi. unfold make_table.
  set (g := fun y => map _ _). rewrite (nth_indep (map g (seq 0 16)) [] (g 0%nat)) by (rewrite map_length, seq_length; auto).
  rewrite (map_nth g), seq_nth by auto. unfold g. rewrite map_length, seq_length. reflexivity.
Qed.
Lemma table_nth f i j : (i < 16)%nat -> (j < 16)%nat ->
  nth j (nth i (make_table f) []) 0 = f_eval f ((INR j + /2) * (f_xw f / 16)) ((INR i + /2) * (f_yw f / 16)).
Proof.
  intros Hi Hj. unfold make_table. set (g := fun y => map _ _).
  rewrite (nth_indep (map g (seq 0 16)) [] (g 0%nat)) by (rewrite map_length, seq_length; auto).
  rewrite (map_nth g), seq_nth by auto. unfold g. set (h := fun x => f_eval f _ _).
  rewrite (nth_indep (map h (seq 0 16)) 0 (h 0%nat)) by (rewrite map_length, seq_length; auto).
  rewrite (map_nth h), seq_nth by auto. unfold h. reflexivity.
Qed.

Record wf (f : film) : Prop := mkWf {
  wf_x : (1 <= xcnt f)%Z; wf_y : (1 <= ycnt f)%Z;
  wf_t : table f = make_table (ffilt f);
  wf_p : rect (pixels f) (Z.to_nat (xcnt f)) (Z.to_nat (ycnt f)) }.
Lemma wf_make xr yr flt c0 c1 c2 c3 : wf (film_make xr yr flt c0 c1 c2 c3).
Proof.
  constructor; try (unfold film_make; cbn [xcnt ycnt]; lia); try reflexivity.
  unfold film_make; cbn [xcnt ycnt pixels]. set (yc := Z.max 1 (Zceil (IZR yr * c3) - _)). set (xc := Z.max 1 _).
  split; [now rewrite repeat_length|]. intros i Hi.
  rewrite (nth_indep _ [] (repeat pixel0 (Z.to_nat yc))) by (now rewrite repeat_length).
  rewrite nth_repeat. now rewrite repeat_length.
Qed.
Lemma make_pix xr yr flt c0 c1 c2 c3 x y : in_film (film_make xr yr flt c0 c1 c2 c3) x y ->
  pix (film_make xr yr flt c0 c1 c2 c3) x y = pixel0.
Proof.
  unfold in_film, pix, film_make; cbn [xstart ystart xcnt ycnt pixels].
  set (yc := Z.max 1 (Zceil (IZR yr * c3) - _)). set (xc := Z.max 1 _). intros [HX HY].
  rewrite (nth_indep _ [] (repeat pixel0 (Z.to_nat yc))) by (rewrite repeat_length; lia).
  now rewrite !nth_repeat.
Qed.

(** same geometry, filter and table; only pixel contents may differ *)
Definition same (f g : film) : Prop :=
  xstart g = xstart f /\ xcnt g = xcnt f /\ ystart g = ystart f /\ ycnt g = ycnt f /\ ffilt g = ffilt f.

Lemma set_pixel f x y p : wf f -> in_film f x y -> exists ps,
  set2 (pixels f) (x - xstart f) (y - ystart f) p = Ok ps /\
  let g := mkFilm (xstart f) (xcnt f) (ystart f) (ycnt f) (ffilt f) (table f) ps in
  wf g /\ forall x' y', in_film f x' y' ->
    pix g x' y' = if ((x' =? x)%Z && (y' =? y)%Z)%bool then p else pix f x' y'.
Proof.
  intros W [HX HY]. destruct W as [WX WY WT WP].
  destruct (set2_in pixel0 (pixels f) _ _ (x - xstart f) (y - ystart f) p WP ltac:(lia) ltac:(lia)) as (ps&E&R&N).
  exists ps. split; auto. split.
  - constructor; auto.
  - intros x' y' [HX' HY']. unfold pix; cbn [xstart ystart pixels]. rewrite N by lia.
    replace (Z.to_nat (x' - xstart f) =? Z.to_nat (x - xstart f))%nat with (x' =? x)%Z.
    + replace (Z.to_nat (y' - ystart f) =? Z.to_nat (y - ystart f))%nat with (y' =? y)%Z; auto.
      destruct (Z.eqb_spec y' y), (Nat.eqb_spec (Z.to_nat (y' - ystart f)) (Z.to_nat (y - ystart f))); auto; lia.
    + destruct (Z.eqb_spec x' x), (Nat.eqb_spec (Z.to_nat (x' - xstart f)) (Z.to_nat (x - xstart f))); auto; lia.
Qed.
Lemma get_pixel f x y : wf f -> in_film f x y -> get2 (pixels f) (x - xstart f) (y - ystart f) = Ok (pix f x y).
Proof.
  intros [WX WY WT WP] [HX HY]. apply (get2_in pixel0 _ _ _ _ _ WP); lia.
Qed.

Lemma tindex_range p d w : (0 <= tindex p d w <= 15)%Z.
Proof.
  unfold tindex. assert (0 <= Zfloor (Rabs ((IZR p - d) * 16 * (1 / w))))%Z; [|lia].
  apply Zfloor_ge. apply Rabs_pos.
Qed.
Lemma tindex_cell p s w : 0 < w -> (INR (Z.to_nat (tindex p (s - /2) w)) + /2) * (w / 16) = cell_mid w (IZR p + /2 - s).
Proof.
  intros Hw. unfold cell_mid. rewrite INR_IZR_INZ, Z2Nat.id by apply tindex_range. unfold tindex.
  replace (Rabs ((IZR p - (s - / 2)) * 16 * (1 / w))) with (16 * Rabs (IZR p + / 2 - s) / w); auto.
  replace ((IZR p - (s - / 2)) * 16 * (1 / w)) with ((IZR p + /2 - s) * (16 / w)) by (unfold Rdiv; ring).
  rewrite Rabs_mult, (Rabs_right (16 / w)).
  - unfold Rdiv; ring.
  - apply Rle_ge. apply Rlt_le, Rdiv_lt_0_compat; lra.
Qed.
Lemma weight_ok f sx sy x y : wf f -> 0 < f_xw (ffilt f) -> 0 < f_yw (ffilt f) ->
  weight f sx sy x y = Ok (tab_weight (ffilt f) sx sy x y).
Proof.
  intros [WX WY WT WP] HX HY. unfold weight. rewrite WT.
  pose proof (tindex_range y (sy - /2) (f_yw (ffilt f))). pose proof (tindex_range x (sx - /2) (f_xw (ffilt f))).
  rewrite (get2_in 0 _ _ _ _ _ (rect_table (ffilt f))) by lia. f_equal.
  rewrite table_nth by lia. rewrite !tindex_cell by auto. reflexivity.
Qed.

Lemma Zrange_In a b z : In z (Zrange a b) <-> (a <= z < b)%Z.
Proof.
  unfold Zrange. rewrite in_map_iff. split.
  - intros (k&<-&Hk). apply in_seq in Hk. lia.
  - intros H. exists (Z.to_nat (z - a)). split; [lia|]. apply in_seq. lia.
Qed.
Lemma Zrange_NoDup a b : NoDup (Zrange a b).
Proof. unfold Zrange. apply FinFun.Injective_map_NoDup; [intros i j; lia|apply seq_NoDup]. Qed.
Lemma NoDup_app {A} (l m : list A) : NoDup l -> NoDup m -> (forall x, In x l -> In x m -> False) -> NoDup (l ++ m).
Proof.
  induction l as [|a l IH]; cbn; auto. intros Hl Hm D. inversion Hl; subst. constructor.
  - rewrite in_app_iff. intros [|]; [tauto|]. eapply D; eauto.
  - apply IH; auto. intros; eapply D; eauto.
Qed.
Lemma grid_NoDup (xs ys : list Z) : NoDup xs -> NoDup ys -> NoDup (flat_map (fun y => map (fun x => (x, y)) xs) ys).
Proof.
  intros HX. induction ys as [|y ys IH]; cbn; intros HY; [constructor|]. inversion HY; subst. apply NoDup_app; auto.
  - apply FinFun.Injective_map_NoDup; auto. intros a b E. congruence.
  - intros [a b] H H'. apply in_map_iff in H. destruct H as (x&E&_). apply in_flat_map in H'.
    destruct H' as (y'&HY'&HI). apply in_map_iff in HI. destruct HI as (x'&E'&_). assert (y = y') by congruence. subst. auto.
Qed.
Lemma coords_In f sx sy x y : In (x, y) (coords f sx sy) <-> in_film f x y /\ covers (ffilt f) sx sy x y.
Proof.
  unfold coords. destruct (extent f sx sy) as [[[x0 x1] y0] y1] eqn:E. unfold extent in E.
  assert (AX : forall (s w : R) (p st cnt : Z),
    (Z.max (Zceil (s - /2 - w)) st <= p <= Z.min (Zfloor (s - /2 + w)) (st + cnt - 1))%Z <->
    (st <= p < st + cnt)%Z /\ Rabs (IZR p + /2 - s) <= w).
  { intros. split.
    - intros [A B]. split; [lia|]. destruct (Zceil_spec (s - /2 - w)) as [_ C1]. destruct (Zfloor_spec (s - /2 + w)) as [C2 _].
      assert (IZR (Zceil (s - / 2 - w)) <= IZR p) by (apply IZR_le; lia).
      assert (IZR p <= IZR (Zfloor (s - / 2 + w))) by (apply IZR_le; lia).
      apply Rabs_le. lra.
    - intros [A B]. assert (- w <= IZR p + /2 - s <= w) by (unfold Rabs in B; destruct Rcase_abs; lra).
      assert (Zceil (s - / 2 - w) <= p)%Z by (apply Zceil_le; lra).
      assert (p <= Zfloor (s - / 2 + w))%Z by (apply Zfloor_ge; lra). lia. }
  pose proof (AX sx (f_xw (ffilt f)) x (xstart f) (xcnt f)) as HX.
  pose proof (AX sy (f_yw (ffilt f)) y (ystart f) (ycnt f)) as HY.
  injection E as E1 E2 E3 E4. rewrite E1, E2 in HX. rewrite E3, E4 in HY. unfold in_film, covers.
  destruct (Z.ltb_spec (x1 - x0) 0); cbn [orb]; [cbn; split; [tauto|intros [[? ?] [? ?]]; destruct HX as [_ HX]; specialize (HX ltac:(tauto)); lia]|].
  destruct (Z.ltb_spec (y1 - y0) 0); cbn [orb]; [cbn; split; [tauto|intros [[? ?] [? ?]]; destruct HY as [_ HY]; specialize (HY ltac:(tauto)); lia]|].
  rewrite in_flat_map. split.
  - intros (y'&Hy'&HM). apply in_map_iff in HM. destruct HM as (x'&E&Hx'). injection E as <- <-. apply Zrange_In in Hy', Hx'.
    destruct HX as [HX _], HY as [HY _]. specialize (HX ltac:(lia)). specialize (HY ltac:(lia)). tauto.
  - intros [[A B] [C D]]. exists y. split; [apply Zrange_In; destruct HY as [_ HY]; specialize (HY ltac:(tauto)); lia|].
    apply in_map_iff. exists x. split; auto. apply Zrange_In. destruct HX as [_ HX]; specialize (HX ltac:(tauto)); lia.
Qed.
Lemma coords_NoDup f sx sy : NoDup (coords f sx sy).
Proof.
  unfold coords. destruct (extent f sx sy) as [[[x0 x1] y0] y1].
  destruct (orb _ _); [constructor|]. apply grid_NoDup; apply Zrange_NoDup.
Qed.
Lemma coversb_spec flt sx sy x y : coversb flt sx sy x y = true <-> covers flt sx sy x y.
Proof. unfold coversb, covers. rewrite andb_true_iff, !Rleb_true. tauto. Qed.

Definition deposit (wt : R) (xyz : vec) (p : pixel) : pixel := mkP (vadd (pL p) (vscale wt xyz)) (pS p) (pW p + wt).

Lemma same_refl f : same f f. Proof. unfold same; auto. Qed.
Lemma same_trans f g h : same f g -> same g h -> same f h.
Proof. unfold same; intuition congruence. Qed.
Lemma same_in f g x y : same f g -> (in_film g x y <-> in_film f x y).
Proof. unfold same, in_film. intros (->&->&->&->&_). tauto. Qed.

Lemma add_pixels_ok cs : forall f sx sy xyz, wf f -> 0 < f_xw (ffilt f) -> 0 < f_yw (ffilt f) -> NoDup cs ->
  (forall x y, In (x, y) cs -> in_film f x y) ->
  exists g, add_pixels f sx sy xyz cs = Ok g /\ wf g /\ same f g /\
    forall x y, in_film f x y ->
      (In (x, y) cs -> pix g x y = deposit (tab_weight (ffilt f) sx sy x y) xyz (pix f x y)) /\
      (~ In (x, y) cs -> pix g x y = pix f x y).
Proof.
  induction cs as [|[cx cy] cs IH]; intros f sx sy xyz W HX HY ND IN.
  - exists f. cbn. split; auto. split; auto. split; [apply same_refl|]. tauto.
  - inversion ND as [|? ? NI ND']; subst. cbn [add_pixels]. unfold add_pixel.
    assert (IF : in_film f cx cy) by (apply IN; now left).
    rewrite weight_ok by auto. cbn [bind]. rewrite get_pixel by auto. cbn [bind].
    fold (deposit (tab_weight (ffilt f) sx sy cx cy) xyz (pix f cx cy)).
    destruct (set_pixel f cx cy (deposit (tab_weight (ffilt f) sx sy cx cy) xyz (pix f cx cy)) W IF) as (ps&E&W1&P1).
    rewrite E. cbn [bind]. set (f1 := mkFilm _ _ _ _ _ _ ps) in *.
    destruct (IH f1 sx sy xyz W1 HX HY ND') as (g&G&WG&SG&PG).
    { intros x y Hi. apply IN. now right. }
    exists g. rewrite G. split; auto. split; auto. split; [exact SG|].
    intros x y HI. specialize (P1 x y HI). specialize (PG x y HI). destruct PG as [PG1 PG2].
    change (ffilt f1) with (ffilt f) in PG1. rewrite P1 in PG1, PG2.
    destruct (Z.eqb_spec x cx) as [Ex|Nx]; [destruct (Z.eqb_spec y cy) as [Ey|Ny]|]; cbn [andb] in *.
    + subst cx cy. split; [intros _; apply PG2; auto|]. intros H. exfalso; apply H; now left.
    + split; [intros [H|H]; [congruence|now apply PG1]|]. intros H. apply PG2. intros H'; apply H; now right.
    + split; [intros [H|H]; [congruence|now apply PG1]|]. intros H. apply PG2. intros H'; apply H; now right.
Qed.
Lemma add_sample_ok f sx sy L : wf f -> 0 < f_xw (ffilt f) -> 0 < f_yw (ffilt f) ->
  exists g, add_sample f sx sy L = Ok g /\ wf g /\ same f g /\
    forall x y, in_film f x y ->
      (covers (ffilt f) sx sy x y -> pix g x y = deposit (tab_weight (ffilt f) sx sy x y) (rgb2xyz L) (pix f x y)) /\
      (~ covers (ffilt f) sx sy x y -> pix g x y = pix f x y).
Proof.
  intros W HX HY. destruct (add_pixels_ok (coords f sx sy) f sx sy (rgb2xyz L) W HX HY (coords_NoDup f sx sy)) as (g&G&WG&SG&P).
  { intros x y H. now apply coords_In in H. }
  exists g. split; auto. split; auto. split; auto. intros x y HI. destruct (P x y HI) as [P1 P2].
  split; intros HC; [apply P1|apply P2]; rewrite coords_In; tauto.
Qed.
Lemma splat_ok f sx sy L : wf f -> exists g, splat f sx sy L = Ok g /\ wf g /\ same f g /\
  forall x y, in_film f x y -> pix g x y =
    if ((Zfloor sx =? x)%Z && (Zfloor sy =? y)%Z)%bool
    then mkP (pL (pix f x y)) (vadd (pS (pix f x y)) (rgb2xyz L)) (pW (pix f x y)) else pix f x y.
Proof.
  intros W. unfold splat. set (X := Zfloor sx). set (Y := Zfloor sy).
  destruct (Z.ltb_spec X (xstart f)); cbn [orb];
  [|destruct (Z.leb_spec (xcnt f) (X - xstart f)); cbn [orb];
  [|destruct (Z.ltb_spec Y (ystart f)); cbn [orb];
  [|destruct (Z.leb_spec (ycnt f) (Y - ystart f)); cbn [orb]]]].
  1-4: (exists f; split; auto; split; auto; split; [apply same_refl|]; intros x y [HX HY];
    destruct (Z.eqb_spec X x), (Z.eqb_spec Y y); cbn [andb]; auto; lia).
  assert (IF : in_film f X Y) by (split; lia).
  rewrite get_pixel by auto. cbn [bind].
  destruct (set_pixel f X Y (mkP (pL (pix f X Y)) (vadd (pS (pix f X Y)) (rgb2xyz L)) (pW (pix f X Y))) W IF) as (ps&E&W1&P1).
  rewrite E. cbn [bind]. eexists. split; [reflexivity|]. split; [exact W1|]. split; [unfold same; cbn; auto|].
  intros x y HI. rewrite (P1 x y HI). rewrite (Z.eqb_sym X x), (Z.eqb_sym Y y).
  destruct (Z.eqb_spec x X) as [E1|]; cbn [andb]; auto. destruct (Z.eqb_spec y Y) as [E2|]; cbn [andb]; auto. now rewrite E1, E2.
Qed.

Lemma rgb2xyz_lin a b u v : rgb2xyz (vadd (vscale a u) (vscale b v)) = vadd (vscale a (rgb2xyz u)) (vscale b (rgb2xyz v)).
Proof. apply V3_eq; unfold rgb2xyz, vadd, vscale; cbn; ring. Qed.
Lemma rgb2xyz_add u v : rgb2xyz (vadd u v) = vadd (rgb2xyz u) (rgb2xyz v).
Proof. apply V3_eq; unfold rgb2xyz, vadd, vscale; cbn; ring. Qed.
Lemma rgb2xyz_scale a u : rgb2xyz (vscale a u) = vscale a (rgb2xyz u).
Proof. apply V3_eq; unfold rgb2xyz, vadd, vscale; cbn; ring. Qed.
Lemma rgb2xyz_0 : rgb2xyz vzero = vzero.
Proof. apply V3_eq; unfold rgb2xyz, vzero; cbn; ring. Qed.
Lemma vadd_assoc u v w : vadd u (vadd v w) = vadd (vadd u v) w.
Proof. apply V3_eq; unfold vadd; cbn; ring. Qed.
Lemma vadd_comm u v : vadd u v = vadd v u.
Proof. apply V3_eq; unfold vadd; cbn; ring. Qed.
Lemma vadd_0_r u : vadd u vzero = u.
Proof. apply V3_eq; unfold vadd, vzero; cbn; ring. Qed.
Lemma vadd_0_l u : vadd vzero u = u.
Proof. apply V3_eq; unfold vadd, vzero; cbn; ring. Qed.
Lemma vscale_0 u : vscale 0 u = vzero.
Proof. apply V3_eq; unfold vscale, vzero; cbn; ring. Qed.

(** the whole history, pixel by pixel *)
Lemma run_ops_ok os : forall f, wf f -> 0 < f_xw (ffilt f) -> 0 < f_yw (ffilt f) ->
  exists g, run_ops f os = Ok g /\ wf g /\ same f g /\
    forall x y, in_film f x y ->
      pL (pix g x y) = vadd (pL (pix f x y)) (rgb2xyz (weighted_sum (ffilt f) x y os)) /\
      pS (pix g x y) = vadd (pS (pix f x y)) (rgb2xyz (splat_sum x y os)) /\
      pW (pix g x y) = pW (pix f x y) + total_weight (ffilt f) x y os.
Proof.
  induction os as [|o os IH]; intros f W HX HY.
  - exists f. cbn. split; auto. split; auto. split; [apply same_refl|]. intros. unfold weighted_sum, splat_sum, total_weight; cbn.
    rewrite rgb2xyz_0, !vadd_0_r. repeat split; ring.
  - cbn [run_ops].
    assert (ST : exists f1, film_step f o = Ok f1 /\ wf f1 /\ same f f1 /\
      forall x y, in_film f x y ->
        pL (pix f1 x y) = vadd (pL (pix f x y)) (rgb2xyz (vscale (op_weight (ffilt f) x y o) (op_rad o))) /\
        pS (pix f1 x y) = vadd (pS (pix f x y)) (rgb2xyz (op_splat x y o)) /\
        pW (pix f1 x y) = pW (pix f x y) + op_weight (ffilt f) x y o).
    { destruct o as [sx sy L|sx sy L]; cbn [film_step op_weight op_splat op_rad].
      - destruct (add_sample_ok f sx sy L W HX HY) as (g&G&WG&SG&P). exists g. split; auto. split; auto. split; auto.
        intros x y HI. destruct (P x y HI) as [P1 P2]. rewrite rgb2xyz_0, vadd_0_r.
        destruct (coversb (ffilt f) sx sy x y) eqn:C.
        + apply coversb_spec in C. rewrite (P1 C). unfold deposit; cbn. rewrite rgb2xyz_scale. auto.
        + rewrite P2 by (rewrite <- coversb_spec; congruence). rewrite vscale_0, rgb2xyz_0, vadd_0_r. repeat split; ring.
      - destruct (splat_ok f sx sy L W) as (g&G&WG&SG&P). exists g. split; auto. split; auto. split; auto.
        intros x y HI. rewrite (P x y HI). rewrite vscale_0, rgb2xyz_0, vadd_0_r.
        destruct (andb _ _); cbn; rewrite ?rgb2xyz_0, ?vadd_0_r; repeat split; ring. }
    destruct ST as (f1&E&W1&S1&P1). rewrite E. cbn [bind].
    assert (FF : ffilt f1 = ffilt f) by apply S1.
    destruct (IH f1 W1) as (g&G&WG&SG&PG); try now rewrite FF.
    exists g. split; auto. split; auto. split; [eapply same_trans; eauto|].
    intros x y HI. destruct (P1 x y HI) as (A&B&C). destruct (PG x y) as (A'&B'&C'); [now apply (same_in f f1)|].
    rewrite A', B', C', A, B, C, FF. unfold weighted_sum, splat_sum, total_weight; cbn [map vsum rsum].
    rewrite !rgb2xyz_add, !vadd_assoc. repeat split; ring.
Qed.

Lemma rsum_perm l m : Permutation l m -> rsum l = rsum m.
Proof. induction 1; cbn; lra. Qed.
Lemma vsum_perm l m : Permutation l m -> vsum l = vsum m.
Proof.
  induction 1; cbn; try congruence. rewrite !vadd_assoc. f_equal. apply vadd_comm.
Qed.
Lemma film_ext f g g' : wf g -> wf g' -> same f g -> same f g' -> table g = table g' ->
  (forall x y, in_film f x y -> pix g x y = pix g' x y) -> g = g'.
Proof.
  intros [WX WY WT WP] [WX' WY' WT' WP'] S S' ET P. unfold same in *.
  destruct g as [a b c d e t ps], g' as [a' b' c' d' e' t' ps']; cbn in *.
  destruct S as (->&->&->&->&->), S' as (->&->&->&->&->). subst t t'. f_equal.
  destruct WP as [L R], WP' as [L' R']. apply nth_ext with (d := []) (d' := []); [congruence|].
  intros i Hi. apply nth_ext with (d := pixel0) (d' := pixel0); [rewrite R, R' by lia; reflexivity|].
  intros j Hj. rewrite R in Hj by lia.
  specialize (P (xstart f + Z.of_nat i)%Z (ystart f + Z.of_nat j)%Z). unfold in_film, pix in P; cbn in P.
  replace (Z.to_nat (xstart f + Z.of_nat i - xstart f)) with i in P by lia.
  replace (Z.to_nat (ystart f + Z.of_nat j - ystart f)) with j in P by lia. apply P. lia.
Qed.
Lemma order_irrelevant f os os' : wf f -> 0 < f_xw (ffilt f) -> 0 < f_yw (ffilt f) -> Permutation os os' ->
  exists g, run_ops f os = Ok g /\ run_ops f os' = Ok g.
Proof.
  intros W HX HY PM. destruct (run_ops_ok os f W HX HY) as (g&G&WG&SG&P). destruct (run_ops_ok os' f W HX HY) as (g'&G'&WG'&SG'&P').
  exists g. split; auto. rewrite G'. f_equal. symmetry. apply (film_ext f); auto.
  - rewrite (wf_t _ WG), (wf_t _ WG'). f_equal. unfold same in *. intuition congruence.
  - intros x y HI. destruct (P x y HI) as (A&B&C), (P' x y HI) as (A'&B'&C').
    assert (T1 : weighted_sum (ffilt f) x y os = weighted_sum (ffilt f) x y os') by (apply vsum_perm, Permutation_map, PM).
    assert (T2 : splat_sum x y os = splat_sum x y os') by (apply vsum_perm, Permutation_map, PM).
    assert (T3 : total_weight (ffilt f) x y os = total_weight (ffilt f) x y os') by (apply rsum_perm, Permutation_map, PM).
    destruct (pix g x y), (pix g' x y); cbn in *. f_equal; congruence.
Qed.
