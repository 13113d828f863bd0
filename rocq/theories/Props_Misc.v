(** C243-C245: rays made from rays, the progress display, indexing of boxes *)
From Coq Require Import Reals Lra ZArith List Bool Lia.
From Verif Require Import Base M_Geometry M_Misc.
Import ListNotations.
Open Scope R_scope.

(** ** C243 *)
(** the offset rays of a ray differential, seen from the ray: where they start and where they point *)
Definition offsets (r : raydiff) : list vec :=
  [vsub (rd_rxo r) (ro (rd_ray r)); vsub (rd_ryo r) (ro (rd_ray r)); vsub (rd_rxd r) (rd (rd_ray r)); vsub (rd_ryd r) (rd (rd_ray r))].
Theorem C243_copies (r : ray) (rd : raydiff) (t : R) :
  ray_from_ray r = r /\ rd_ray (raydiff_from_ray r) = r /\ rd_has (raydiff_from_ray r) = false /\ raydiff_from_rd rd = rd.
Proof. destruct r, rd as [[] ? ? ? ? ?]. repeat split. Qed.
Theorem C243_children (o d : vec) (dz : V3 bool) (r : ray) (mint maxt : E) (t : R) :
  let c := ray_from_parent o d dz r mint maxt in
  rdepth c = (rdepth r + 1)%Z /\ rtime c = rtime r /\ rmint c = mint /\ rmaxt c = maxt /\ ray_at c 0 = o /\
  ray_at c t = mkV (vx o + t * vx d) (vy o + t * vy d) (vz o + t * vz d) /\
  rd_ray (raydiff_from_parent o d dz r mint maxt) = c /\ rd_has (raydiff_from_parent o d dz r mint maxt) = false.
Proof.
  cbn. repeat split. unfold ray_at, vadd, vscale, vmap, vmap2; cbn. destruct o. cbn. f_equal; ring.
Qed.
(** depth counts the generations since the camera *)
Fixpoint descend (n : nat) (ods : nat -> vec * vec) (r : ray) : ray :=
  match n with O => r | S n => let p := descend n ods r in ray_from_parent (fst (ods n)) (snd (ods n)) (mkV false false false) p (Fin 0) PInf end.
Theorem C243_generations (n : nat) (ods : nat -> vec * vec) (r : ray) :
  rdepth (descend n ods r) = (rdepth r + Z.of_nat n)%Z /\ rtime (descend n ods r) = rtime r.
Proof.
  induction n as [|n [IH1 IH2]]; [cbn; split; [lia|reflexivity]|]. cbn [descend ray_from_parent rdepth rtime]. rewrite IH1. split; [lia|exact IH2].
Qed.
(** scaling multiplies the offsets and leaves the main ray alone; scalings compose *)
Theorem C243_scale (r : raydiff) (s t : R) :
  rd_ray (scale_differential r s) = rd_ray r /\ rd_has (scale_differential r s) = rd_has r /\
  offsets (scale_differential r s) = map (fun v => mkV (s * vx v) (s * vy v) (s * vz v)) (offsets r) /\
  scale_differential (scale_differential r s) t = scale_differential r (s * t) /\ scale_differential r 1 = r.
Proof.
  destruct r as [[o d z a b c e] h [x0 x1 x2] [y0 y1 y2] [u0 u1 u2] [v0 v1 v2]]. destruct o as [o0 o1 o2], d as [d0 d1 d2].
  unfold scale_differential, offsets, vadd, vsub, vscale, vmap, vmap2; cbn. repeat split; repeat (f_equal; try ring).
Qed.
Print Assumptions C243_copies.
Print Assumptions C243_children.
Print Assumptions C243_generations.
Print Assumptions C243_scale.

(** ** C244 *)
Definition filled (l : list bool) : nat := length (filter (fun b => b) l).
Lemma filter_true n : filter (fun b => b) (repeat true n) = repeat true n. Proof. induction n; cbn; congruence. Qed.
Lemma filter_false n : filter (fun b : bool => b) (repeat false n) = []. Proof. induction n; cbn; congruence. Qed.
Lemma filled_app a b : filled (repeat true a ++ repeat false b) = a.
Proof. unfold filled. rewrite filter_app, filter_true, filter_false, app_nil_r. apply repeat_length. Qed.
(** every bar has the requested length; the filled part comes first and is the proportion rounded down *)
Theorem C244_bar (i n len : Z) : (0 < n)%Z -> (0 <= i <= n)%Z -> (0 <= len)%Z ->
  exists b, progress_cells i n len = Ok b /\ Z.of_nat (length b) = len /\
    (Z.of_nat (filled b) * n <= len * i < (Z.of_nat (filled b) + 1) * n)%Z /\
    b = repeat true (filled b) ++ repeat false (length b - filled b) /\
    ((0 < len)%Z -> (forall x, In x b -> x = true) -> i = n).
Proof.
  intros Hn Hi Hl. unfold progress_cells. replace (n =? 0)%Z with false by lia. set (f := (len * i / n)%Z).
  assert (F0 : (0 <= f)%Z) by (apply Z.div_pos; nia).
  assert (F1 : (f <= len)%Z) by (apply Z.div_le_upper_bound; nia).
  assert (F2 : (f * n <= len * i < (f + 1) * n)%Z).
  { pose proof (Z.mul_div_le (len * i) n Hn). pose proof (Z.mul_succ_div_gt (len * i) n Hn). unfold f. nia. }
  eexists. split; [reflexivity|]. rewrite app_length, !repeat_length, filled_app.
  split; [lia|]. split; [rewrite Z2Nat.id by lia; lia|]. split.
  - f_equal. f_equal. lia.
  - intros Hl' HA. destruct (Z.eq_dec i n) as [->|NE]; [reflexivity|]. exfalso. assert (f < len)%Z by nia.
    destruct (Z.to_nat (len - f)) eqn:E; [lia|]. specialize (HA false). cbn in HA. discriminate HA. apply in_or_app. right. left. reflexivity.
Qed.
(** it never shrinks as the iteration advances; completion prints a full bar; an empty job raises *)
Theorem C244_progress (i j n len : Z) (a b : list bool) : (0 < n)%Z -> (0 <= i <= j)%Z -> (0 <= len)%Z ->
  progress_cells i n len = Ok a -> progress_cells j n len = Ok b -> (filled a <= filled b)%nat.
Proof.
  intros Hn Hi Hl. unfold progress_cells. replace (n =? 0)%Z with false by lia. intros [= <-] [= <-]. rewrite !filled_app.
  apply Z2Nat.inj_le; try (apply Z.div_pos; nia). apply Z.div_le_mono; nia.
Qed.
Theorem C244_completion (n len : Z) : (0 < n)%Z -> (0 <= len)%Z ->
  progress_reporter n n len = Ok [repeat true (Z.to_nat len); repeat true (Z.to_nat len)] /\
  (forall i l, (i < n)%Z -> progress_reporter i n len = Ok l -> length l = 1%nat) /\ (forall i, progress_reporter i 0 len = Err ZeroDivisionError).
Proof.
  intros Hn Hl. split; [|split].
  - unfold progress_reporter, progress_cells. replace (n =? 0)%Z with false by lia. rewrite Z.div_mul by lia. cbn [bind]. rewrite Z.eqb_refl, Z.sub_diag.
    cbn. now rewrite app_nil_r.
  - intros i l Hi. unfold progress_reporter, progress_cells. replace (n =? 0)%Z with false by lia. cbn [bind]. replace (i =? n)%Z with false by lia.
    intros [= <-]. reflexivity.
  - reflexivity.
Qed.
Print Assumptions C244_bar.
Print Assumptions C244_progress.
Print Assumptions C244_completion.
Example C244_ex : progress_cells 1 3 4 = Ok [true; false; false; false]. Proof. reflexivity. Qed.

(** ** C245 *)
Theorem C245_getitem (b : box) (k : Z) : box_getitem b 0 = Ok (bmin b) /\ box_getitem b 1 = Ok (bmax b) /\
  ((k <> 0)%Z -> (k <> 1)%Z -> box_getitem b k = Err KeyError).
Proof. repeat split. intros A B. unfold box_getitem. replace (k =? 0)%Z with false by lia. replace (k =? 1)%Z with false by lia. reflexivity. Qed.
Print Assumptions C245_getitem.
