(** Property theorems C302: the picture in the light of two groups of lamps is the sum of the two pictures.  Vocabulary: S_Picture.v, S_Film.v, S_World.v,
    S_Superpose.v, S_Brighter.v. *)
From Coq Require Import Reals Lra Lia List ZArith Bool Permutation.
From Flocq Require Import Core.Raux.
From Verif Require Import Base M_MonteCarlo M_Aggregate M_Utility M_Spectrum M_Sampler S_Sampler M_Film S_Film P_Sampler P_Film P_Film2 P_Film3 P_Renderer.
From Verif Require Import M_Geometry S_Geometry P_Geometry P_LobeSampling M_Transform S_Transform P_Transform P_Transform2 M_Shapes S_Shapes P_ShapesMore M_BVH S_BVH
  M_Reflection S_Reflection M_Light M_Primitive S_Scene P_Scene P_Scene2 M_Material S_Material M_Integrator S_Integrator S_Integrator2 M_World S_World P_World
  P_World2 Props_Scene Props_World M_Renderer M_Render P_Render Props_Render S_Picture P_Picture M_World2 M_Camera S_Camera P_Camera Props_Picture
  S_Order P_Order Props_Order S_Superpose S_Brighter P_Superpose Props_Superpose P_Reflection2 P_Brighter Props_Brighter.
Import ListNotations.
Local Open Scope R_scope.

(** ** The loop over the pixels *)
Definition add1 (x : sample * (vec * vec)) : sample * V3 E := (fst x, vmap Fin (fst (snd x))).
Definition add2 (x : sample * (vec * vec)) : sample * V3 E := (fst x, vmap Fin (snd (snd x))).
Definition add3 (g : vec -> vec -> vec) (x : sample * (vec * vec)) : sample * V3 E := (fst x, vmap Fin (g (fst (snd x)) (snd (snd x)))).
Definition holds (Rr : vec -> vec -> Prop) (x : sample * (vec * vec)) : Prop := Rr (fst (snd x)) (snd (snd x)).
Definition ge0_both (a b : vec) : Prop := spec_ge0 a /\ spec_ge0 b.
Section Sum.
Context {W1 W2 W3 : Type}
  (cam1 : sample -> W1 -> res (R * raydiff * W1)) (hitp1 : raydiff -> W1 -> res (bool * W1)) (li1 : raydiff -> sample -> W1 -> res (V3 E * W1))
  (cam2 : sample -> W2 -> res (R * raydiff * W2)) (hitp2 : raydiff -> W2 -> res (bool * W2)) (li2 : raydiff -> sample -> W2 -> res (V3 E * W2))
  (cam3 : sample -> W3 -> res (R * raydiff * W3)) (hitp3 : raydiff -> W3 -> res (bool * W3)) (li3 : raydiff -> sample -> W3 -> res (V3 E * W3)).
Variables (wx0 wx1 wy0 wy1 : Z) (xst yst : Z) (jitter : bool) (o c : R).
Hypotheses (HX : (wx0 < wx1)%Z) (HY : (wy0 < wy1)%Z).
Let s0 := stratified_make (IZR wx0) (IZR wx1) (IZR wy0) (IZR wy1) xst yst jitter o c.
Let n := (xSamples s0 * ySamples s0)%nat.
Variables (orig : sample) (rn : nat -> rnd) (g : vec -> vec -> vec) (Rr : vec -> vec -> Prop).
Hypothesis RN : forall k, rnd_ok s0 (duplicate orig n) (rn k).
Hypothesis HS : forall a w1 w2 w3 L1 L2 w1' w2', sent s0 orig wx0 wx1 wy0 wy1 a ->
  shade cam1 hitp1 li1 false n a w1 = Ok (L1, w1') -> shade cam2 hitp2 li2 false n a w2 = Ok (L2, w2') ->
  exists v1 v2 w3', L1 = vmap Fin v1 /\ L2 = vmap Fin v2 /\ Rr v1 v2 /\ shade cam3 hitp3 li3 false n a w3 = Ok (vmap Fin (g v1 v2), w3').

Lemma shade_all_sum l : List.Forall (sent s0 orig wx0 wx1 wy0 wy1) l -> forall w1 w2 w3 Ls1 Ls2 w1' w2',
  shade_all cam1 hitp1 li1 false n l w1 = Ok (Ls1, w1') -> shade_all cam2 hitp2 li2 false n l w2 = Ok (Ls2, w2') ->
  exists q Ls3 w3', shade_all cam3 hitp3 li3 false n l w3 = Ok (Ls3, w3') /\ List.Forall (holds Rr) q /\
    combine l Ls1 = map add1 q /\ combine l Ls2 = map add2 q /\ combine l Ls3 = map (add3 g) q.
Proof.
  induction 1 as [|a l Ha _ IH]; intros w1 w2 w3 Ls1 Ls2 w1' w2'; cbn [shade_all].
  - intros [= <- <-] [= <- <-]. exists [], [], w3. repeat split. constructor.
  - destruct (shade cam1 hitp1 li1 false n a w1) as [[L1 x1]|] eqn:S1; cbn [bind]; [|discriminate].
    destruct (shade_all cam1 hitp1 li1 false n l x1) as [[M1 y1]|] eqn:A1; cbn [bind]; [|discriminate]. intros [= <- _].
    destruct (shade cam2 hitp2 li2 false n a w2) as [[L2 x2]|] eqn:S2; cbn [bind]; [|discriminate].
    destruct (shade_all cam2 hitp2 li2 false n l x2) as [[M2 y2]|] eqn:A2; cbn [bind]; [|discriminate]. intros [= <- _].
    destruct (HS a w1 w2 w3 L1 L2 x1 x2 Ha S1 S2) as (v1 & v2 & x3 & -> & -> & N1 & ->). cbn [bind].
    destruct (IH x1 x2 x3 M1 M2 y1 y2 A1 A2) as (q & M3 & y3 & -> & F & E1 & E2 & E3). cbn [bind].
    exists ((a, (v1, v2)) :: q). do 2 eexists. split; [reflexivity|]. split; [constructor; [exact N1|exact F]|].
    cbn [combine map]. rewrite E1, E2, E3. repeat split.
Qed.
Lemma loop_sum : forall m k a w1 w2 w3 fuel adds1 adds2, (k + m = Z.to_nat (wx1 - wx0) * Z.to_nat (wy1 - wy0))%nat -> (m < fuel)%nat ->
  length a = n ->
  (forall i, n1D (nth i a dsmp) = n1D (nth i (duplicate orig n) dsmp) /\ n2D (nth i a dsmp) = n2D (nth i (duplicate orig n) dsmp)) ->
  task_loop cam1 hitp1 li1 false n fuel (st wx0 wx1 wy0 wy1 xst yst jitter o c k) a rn k w1 = Some (Ok adds1) ->
  task_loop cam2 hitp2 li2 false n fuel (st wx0 wx1 wy0 wy1 xst yst jitter o c k) a rn k w2 = Some (Ok adds2) ->
  exists q, task_loop cam3 hitp3 li3 false n fuel (st wx0 wx1 wy0 wy1 xst yst jitter o c k) a rn k w3 = Some (Ok (map (add3 g) q)) /\
    List.Forall (holds Rr) q /\ adds1 = map add1 q /\ adds2 = map add2 q.
Proof.
  induction m as [|m IH]; intros k a w1 w2 w3 fuel adds1 adds2 HK HF HN HD; (destruct fuel as [|fuel]; [lia|]); cbn [task_loop].
  - replace k with (Z.to_nat (wx1 - wx0) * Z.to_nat (wy1 - wy0))%nat by lia.
    rewrite !(st_end wx0 wx1 wy0 wy1 xst yst jitter o c HX HY). intros [= <-] [= <-]. exists []. repeat split. constructor.
  - assert (RO : rnd_ok s0 a (rn k)).
    { eapply rnd_ok_ext; [| |apply RN]; [unfold duplicate; rewrite repeat_length; exact HN|exact HD]. }
    destruct (st_step wx0 wx1 wy0 wy1 xst yst jitter o c HX HY k a (rn k)) as (smp' & G & CG); [lia|exact HN|exact RO|].
    rewrite G. destruct (gen_keeps _ _ _ _ _ _ G) as [KL KN].
    assert (SF : List.Forall (sent s0 orig wx0 wx1 wy0 wy1) smp').
    { apply List.Forall_forall. intros q Ha. destruct (In_nth _ _ dsmp Ha) as (i & Hi & <-). rewrite KL, HN in Hi.
      destruct CG as (_ & CG & _). rewrite HN in CG. specialize (CG i Hi).
      exists (pxk wx0 wx1 k), (pyk wx0 wx1 wy0 k).
      assert (D0 : (0 < Z.to_nat (wx1 - wx0))%nat) by lia.
      split; [|split].
      - unfold pxk. pose proof (Nat.mod_upper_bound k (Z.to_nat (wx1 - wx0)) ltac:(lia)). lia.
      - unfold pyk. assert (k / Z.to_nat (wx1 - wx0) < Z.to_nat (wy1 - wy0))%nat by (apply Nat.div_lt_upper_bound; lia). lia.
      - eapply sample_good_old; [| |exact CG].
        + destruct (HD i) as [-> _]. now rewrite (dup_nth wx0 wx1 wy0 wy1 xst yst jitter o c orig).
        + destruct (HD i) as [_ ->]. now rewrite (dup_nth wx0 wx1 wy0 wy1 xst yst jitter o c orig). }
    destruct (shade_all cam1 hitp1 li1 false n smp' w1) as [[Ls1 x1]|] eqn:A1; [|discriminate].
    destruct (task_loop cam1 hitp1 li1 false n fuel _ smp' rn (Datatypes.S k) x1) as [[r1|]|] eqn:T1; try discriminate. intros [= <-].
    destruct (shade_all cam2 hitp2 li2 false n smp' w2) as [[Ls2 x2]|] eqn:A2; [|discriminate].
    destruct (task_loop cam2 hitp2 li2 false n fuel _ smp' rn (Datatypes.S k) x2) as [[r2|]|] eqn:T2; try discriminate. intros [= <-].
    destruct (shade_all_sum smp' SF w1 w2 w3 Ls1 Ls2 x1 x2 A1 A2) as (q & Ls3 & x3 & -> & F & -> & -> & ->).
    destruct (IH (Datatypes.S k) smp' x1 x2 x3 fuel r1 r2) as (q' & -> & F' & -> & ->); try lia; try assumption.
    { intros i. destruct (KN i) as [-> ->]. apply HD. }
    exists (q ++ q'). rewrite !map_app. repeat split. now apply List.Forall_app.
Qed.
End Sum.

(** every pixel of the film is covered by a sample inside it *)
Lemma weight_pos (W : Type) (cam : sample -> W -> res (R * raydiff * W)) hitp li xr yr flt c0 c1 c2 c3 (x0 x1 y0 y1 xst yst : Z) (jitter : bool) (o c : R)
    orig rn w fuel adds :
  proper_filter flt ->
  let f := film_make xr yr flt c0 c1 c2 c3 in
  (x0 <= xstart f)%Z -> (xstart f + xcnt f <= x1)%Z -> (y0 <= ystart f)%Z -> (ystart f + ycnt f <= y1)%Z ->
  let s := stratified_make (IZR x0) (IZR x1) (IZR y0) (IZR y1) xst yst jitter o c in
  let n := (xSamples s * ySamples s)%nat in
  (forall k, rnd_ok s (duplicate orig n) (rn k)) ->
  (Z.to_nat (x1 - x0) * Z.to_nat (y1 - y0) < fuel)%nat ->
  task_loop cam hitp li false n fuel (st x0 x1 y0 y1 xst yst jitter o c 0) (duplicate orig n) rn 0 w = Some (Ok adds) ->
  (forall a, In a adds -> exists v, snd a = vmap Fin v) ->
  forall x y, in_film f x y -> 0 < total_weight flt x y (map to_op adds).
Proof.
  intros (Hxw & Hyw & NN & PP) f X0 X1 Y0 Y1 s n RN Hfu T FI.
  assert (XC : (0 < xcnt f)%Z) by (unfold f, film_make; cbn [xcnt]; lia).
  assert (YC : (0 < ycnt f)%Z) by (unfold f, film_make; cbn [ycnt]; lia).
  assert (HX : (x0 < x1)%Z) by lia. assert (HY : (y0 < y1)%Z) by lia.
  destruct (loop_spec cam hitp li false x0 x1 y0 y1 xst yst jitter o c HX HY orig rn RN (Z.to_nat (x1 - x0) * Z.to_nat (y1 - y0)) 0
     (duplicate orig n) w fuel) as (out & T' & P); [reflexivity|exact Hfu|apply repeat_length|auto|].
  fold s in T'. fold n in T'. rewrite T in T'. injection T' as <-.
  destruct (P adds eq_refl) as (PL & _ & PG). fold s in PL, PG. fold n in PL, PG.
  assert (Hn : (0 < n)%nat). { unfold n, s, stratified_make; cbn [xSamples ySamples]. nia. }
  intros x y [IX IY]. set (j := (Z.to_nat (y - y0) * Z.to_nat (x1 - x0) + Z.to_nat (x - x0))%nat).
  assert (Hd : (Z.to_nat (x - x0) < Z.to_nat (x1 - x0))%nat) by lia.
  assert (Hj : (j < Z.to_nat (x1 - x0) * Z.to_nat (y1 - y0))%nat).
  { unfold j. assert (Datatypes.S (Z.to_nat (y - y0)) <= Z.to_nat (y1 - y0))%nat by lia. nia. }
  pose proof (PG j 0%nat Hj Hn) as (GX & GY & _).
  set (a := nth (j * n + 0) adds (dsmp, black)) in *.
  assert (Ha : In a adds). { apply nth_In. rewrite PL. set (q := (Z.to_nat (x1 - x0) * Z.to_nat (y1 - y0))%nat) in *. clearbody n q j. nia. }
  assert (EX : pxk x0 x1 (0 + j) = x).
  { unfold pxk. cbn [Nat.add]. unfold j. rewrite Nat.add_comm, Nat.mod_add, Nat.mod_small by lia. lia. }
  assert (EY : pyk x0 x1 y0 (0 + j) = y).
  { unfold pyk. cbn [Nat.add]. unfold j. rewrite Nat.add_comm, Nat.div_add, Nat.div_small by lia. lia. }
  rewrite EX in GX. rewrite EY in GY.
  destruct (FI a Ha) as (v & Ev).
  assert (CV : S_Film.covers flt (imageX (fst a)) (imageY (fst a)) x y).
  { split; apply Rabs_le; lra. }
  apply rsum_pos with (x := op_weight flt x y (to_op a)).
  - intros z Hz. apply in_map_iff in Hz. destruct Hz as (op & <- & Hop). destruct op; cbn [op_weight]; [|lra].
    destruct (coversb _ _ _ _ _); [apply NN|lra].
  - apply in_map. now apply in_map.
  - unfold to_op. rewrite Ev. destruct v as [v1 v2 v3]. cbn [vmap finite3 vx vy vz op_weight].
    replace (coversb _ _ _ _ _) with true by (symmetry; now apply coversb_spec).
    destruct CV as [C1 C2]. apply PP; apply cell_mid_range; auto; lra.
Qed.

(** ** The film *)
Definition op1 (x : sample * (vec * vec)) : film_op := Add (imageX (fst x)) (imageY (fst x)) (fst (snd x)).
Definition op2 (x : sample * (vec * vec)) : film_op := Add (imageX (fst x)) (imageY (fst x)) (snd (snd x)).
Definition op3 (g : vec -> vec -> vec) (x : sample * (vec * vec)) : film_op := Add (imageX (fst x)) (imageY (fst x)) (g (fst (snd x)) (snd (snd x))).
Lemma ops_add g q : map to_op (map add1 q) = map op1 q /\ map to_op (map add2 q) = map op2 q /\ map to_op (map (add3 g) q) = map (op3 g) q.
Proof.
  rewrite !map_map. repeat split; apply map_ext; intros [a [[p1 p2 p3] [q1 q2 q3]]]; try reflexivity.
  unfold to_op, add3, op3. cbn [fst snd]. destruct (g _ _); reflexivity.
Qed.
Lemma weights_add g flt x y q : total_weight flt x y (map op1 q) = total_weight flt x y (map (op3 g) q) /\ total_weight flt x y (map op2 q) = total_weight flt x y (map (op3 g) q).
Proof. unfold total_weight. rewrite !map_map. split; reflexivity. Qed.
Lemma sums_add flt x y q : weighted_sum flt x y (map (op3 vadd) q) = vadd (weighted_sum flt x y (map op1 q)) (weighted_sum flt x y (map op2 q)).
Proof.
  unfold weighted_sum. rewrite !map_map. induction q as [|a q IH]; cbn [map S_Film.vsum]; [apply V3_eq; cbn; lra|]. rewrite IH.
  unfold op1, op2, op3. cbn [op_weight op_rad]. set (w := if coversb flt _ _ x y then _ else _). unfold vadd, vscale, vmap2, vmap. apply V3_eq; cbn; ring.
Qed.
Lemma sums_ge0 flt x y (op : sample * (vec * vec) -> film_op) q : (forall a b, 0 <= f_eval flt a b) -> (forall a, In a q -> spec_ge0 (op_rad (op a))) ->
  spec_ge0 (weighted_sum flt x y (map op q)).
Proof.
  intros NN. unfold weighted_sum. rewrite map_map. induction q as [|a q IH]; cbn [map S_Film.vsum]; intros H; [unfold spec_ge0, vzero; cbn; lra|].
  destruct (H a (or_introl eq_refl)) as (A & B & C). destruct (IH (fun b Hb => H b (or_intror Hb))) as (A' & B' & C').
  pose proof (nonneg_weight flt x y (op a) NN) as W0.
  unfold spec_ge0, vadd, vscale, vmap2, vmap; cbn. repeat split; apply Rplus_le_le_0_compat; try assumption; now apply Rmult_le_pos.
Qed.
Lemma splat_add x y (op : sample * (vec * vec) -> film_op) q : (forall a, op_splat x y (op a) = vzero) -> splat_sum x y (map op q) = vzero.
Proof.
  intros H. unfold splat_sum. rewrite map_map. induction q as [|a q IH]; cbn [map S_Film.vsum]; [reflexivity|]. rewrite IH, H. apply V3_eq; cbn; lra.
Qed.

(** ** Statements *)
(** Three renders with the same sampler and the same random numbers for it, such that for every sample the third deposits the sum of what the first two
    deposit, none of it negative: when the first two succeed so does the third, and every pixel of its picture is the sum of the pixels of the other two, up to
    three millionths of its size (the constants of the colour conversion). *)
Theorem C302_sum (W1 W2 W3 : Type) (cam1 : sample -> W1 -> res (R * raydiff * W1)) hitp1 li1 (cam2 : sample -> W2 -> res (R * raydiff * W2)) hitp2 li2
    (cam3 : sample -> W3 -> res (R * raydiff * W3)) hitp3 li3
    (xr yr : Z) (flt : filt) (c0 c1 c2 c3 : R) (x0 x1 y0 y1 xst yst : Z) (jitter : bool) (o c : R) (orig : sample) (rn : nat -> rnd)
    (w1 : W1) (w2 : W2) (w3 : W3) (sc : R) (fuel : nat) img1 img2 :
  proper_filter flt ->
  let f := film_make xr yr flt c0 c1 c2 c3 in
  get_sample_extent f = (x0, x1, y0, y1) ->
  let s := stratified_make (IZR x0) (IZR x1) (IZR y0) (IZR y1) xst yst jitter o c in
  let n := (xSamples s * ySamples s)%nat in
  (forall k, rnd_ok s (duplicate orig n) (rn k)) ->
  (forall a w1 w2 w3 L1 L2 w1' w2', sent s orig x0 x1 y0 y1 a ->
     shade cam1 hitp1 li1 false n a w1 = Ok (L1, w1') -> shade cam2 hitp2 li2 false n a w2 = Ok (L2, w2') ->
     exists v1 v2 w3', L1 = vmap Fin v1 /\ L2 = vmap Fin v2 /\ spec_ge0 v1 /\ spec_ge0 v2 /\ shade cam3 hitp3 li3 false n a w3 = Ok (vmap Fin (vadd v1 v2), w3')) ->
  (Z.to_nat (x1 - x0) * Z.to_nat (y1 - y0) < fuel)%nat ->
  render cam1 hitp1 li1 s orig rn w1 fuel f sc = Some (Ok img1) ->
  render cam2 hitp2 li2 s orig rn w2 fuel f sc = Some (Ok img2) ->
  exists img3, render cam3 hitp3 li3 s orig rn w3 fuel f sc = Some (Ok img3) /\
    forall x y, in_film f x y ->
      vclose (3e-6 * vabs1 (pixel_at f img3 x y)) (pixel_at f img3 x y) (vadd (pixel_at f img1 x y) (pixel_at f img2 x y)).
Proof.
  intros PF f GE s n RN HS Hfu.
  assert (XC : (0 < xcnt f)%Z) by (unfold f, film_make; cbn [xcnt]; lia).
  assert (YC : (0 < ycnt f)%Z) by (unfold f, film_make; cbn [ycnt]; lia).
  destruct (extent_window f x0 x1 y0 y1) as (A & B & C & D); [exact XC|exact YC|apply PF|apply PF|exact GE|].
  assert (HX : (x0 < x1)%Z) by lia. assert (HY : (y0 < y1)%Z) by lia.
  unfold render, task. change (maximum_sample_cnt s) with n. fold n.
  destruct (task_loop cam1 hitp1 li1 false n fuel s (duplicate orig n) rn 0 w1) as [[adds1|]|] eqn:T1; try discriminate.
  destruct (task_loop cam2 hitp2 li2 false n fuel s (duplicate orig n) rn 0 w2) as [[adds2|]|] eqn:T2; try (intros; discriminate).
  assert (HS' : forall a w1 w2 w3 L1 L2 w1' w2', sent s orig x0 x1 y0 y1 a ->
     shade cam1 hitp1 li1 false n a w1 = Ok (L1, w1') -> shade cam2 hitp2 li2 false n a w2 = Ok (L2, w2') ->
     exists v1 v2 w3', L1 = vmap Fin v1 /\ L2 = vmap Fin v2 /\ ge0_both v1 v2 /\ shade cam3 hitp3 li3 false n a w3 = Ok (vmap Fin (vadd v1 v2), w3')).
  { intros a p1 p2 p3 L1 L2 p1' p2' SS H1 H2. destruct (HS a p1 p2 p3 L1 L2 p1' p2' SS H1 H2) as (v1 & v2 & p3' & G1 & G2 & G3 & G4 & G5).
    exists v1, v2, p3'. unfold ge0_both. auto 6. }
  pose proof (fun H1 H2 => loop_sum cam1 hitp1 li1 cam2 hitp2 li2 cam3 hitp3 li3 x0 x1 y0 y1 xst yst jitter o c HX HY orig rn vadd ge0_both RN HS'
    (Z.to_nat (x1 - x0) * Z.to_nat (y1 - y0)) 0 (duplicate orig n) w1 w2 w3 fuel adds1 adds2 eq_refl Hfu (repeat_length _ _) (fun _ => conj eq_refl eq_refl) H1 H2) as LS.
  pose proof (weight_pos W3 cam3 hitp3 li3 xr yr flt c0 c1 c2 c3 x0 x1 y0 y1 xst yst jitter o c orig rn w3 fuel) as WP.
  rewrite (st_0 x0 x1 y0 y1 xst yst jitter o c HX HY) in LS, WP. fold s in LS, WP. fold n in LS. cbv zeta in WP. fold f in WP. fold n in WP.
  destruct (LS T1 T2) as (q & T3 & F & -> & ->). specialize (WP (map (add3 vadd) q) PF A B C D RN Hfu T3). rewrite T3.
  rewrite List.Forall_forall in F.
  destruct (ops_add vadd q) as (O1 & O2 & O3).
  assert (FI : forall (g : sample * (vec * vec) -> sample * V3 E), (forall a, exists v, snd (g a) = vmap Fin v) -> forall a, In a (map g q) -> exists v, snd a = vmap Fin v).
  { intros g Hg a Ha. apply in_map_iff in Ha. destruct Ha as (b & <- & _). apply Hg. }
  assert (F1 : forall a, In a (map add1 q) -> exists v, snd a = vmap Fin v) by (apply FI; intros; eexists; reflexivity).
  assert (F2 : forall a, In a (map add2 q) -> exists v, snd a = vmap Fin v) by (apply FI; intros; eexists; reflexivity).
  assert (F3 : forall a, In a (map (add3 vadd) q) -> exists v, snd a = vmap Fin v) by (apply FI; intros; eexists; reflexivity).
  specialize (WP F3). rewrite O3 in WP.
  destruct PF as (Hxw & Hyw & NN & PP).
  assert (REC : forall op x y, (forall a, In a q -> spec_ge0 (op_rad (op a))) -> (forall a, op_splat x y (op a) = vzero) -> in_film f x y -> total_weight flt x y (map op q) = total_weight flt x y (map (op3 vadd) q) ->
    exists g, run_ops f (map op q) = Ok g /\
      let avg := vscale (/ total_weight flt x y (map (op3 vadd) q)) (weighted_sum flt x y (map op q)) in
      spec_ge0 avg /\ vclose (1e-6 * vabs1 avg) (pixel_at f (film_rgb g sc) x y) avg).
  { intros op x y OG OS IN TW. pose proof (WP x y IN) as W0.
    destruct (reconstruct xr yr flt c0 c1 c2 c3 (map op q) sc x y ltac:(lra) ltac:(lra) IN) as (g & RG & CL); [rewrite TW; lra|].
    exists g. split; [exact RG|]. cbv zeta. rewrite TW in CL. cbv zeta in CL. rewrite splat_add in CL by exact OS.
    destruct (sums_ge0 flt x y op q NN OG) as (P1 & P2 & P3). set (avg := vscale _ _) in *.
    assert (AV : spec_ge0 avg).
    { unfold avg, spec_ge0, vscale, vmap; cbn. pose proof (Rinv_0_lt_compat _ W0). repeat split; apply Rmult_le_pos; lra. }
    split; [exact AV|]. fold f in CL. fold (pixel_at f (film_rgb g sc) x y) in CL.
    replace (1e-6 * vabs1 avg + Rabs sc * (1e-6 * vabs1 vzero)) with (1e-6 * vabs1 avg) in CL.
    2:{ unfold vabs1, vzero; cbn. rewrite Rabs_R0. lra. }
    replace (vadd (vmap (Rmax 0) avg) (vscale sc vzero)) with avg in CL; [exact CL|].
    destruct AV as (A1 & A2 & A3). unfold vadd, vmap, vmap2, vscale, vzero. apply V3_eq; cbn; rewrite Rmax_right by assumption; lra. }
  assert (G1 : forall a, In a q -> spec_ge0 (op_rad (op1 a))) by (intros a Ha; apply (F a Ha)).
  assert (G2 : forall a, In a q -> spec_ge0 (op_rad (op2 a))) by (intros a Ha; apply (F a Ha)).
  assert (G3 : forall a, In a q -> spec_ge0 (op_rad (op3 vadd a))) by (intros a Ha; destruct (F a Ha) as [U V]; now apply P_Reflection2.add_ge0).
  assert (INF : in_film f (xstart f) (ystart f)) by (split; lia).
  destruct (REC op1 _ _ G1 (fun _ => eq_refl) INF (proj1 (weights_add vadd _ _ _ _))) as (g1 & R1 & _).
  destruct (REC op2 _ _ G2 (fun _ => eq_refl) INF (proj2 (weights_add vadd _ _ _ _))) as (g2 & R2 & _).
  destruct (REC (op3 vadd) _ _ G3 (fun _ => eq_refl) INF eq_refl) as (g3 & R3 & _).
  rewrite (deposit_run (map add1 q) F1 f g1) by (rewrite O1; exact R1). rewrite (deposit_run (map add2 q) F2 f g2) by (rewrite O2; exact R2).
  rewrite (deposit_run (map (add3 vadd) q) F3 f g3) by (rewrite O3; exact R3).
  intros [= <-] [= <-]. exists (film_rgb g3 sc). split; [reflexivity|]. intros x y IN.
  destruct (REC op1 x y G1 (fun _ => eq_refl) IN (proj1 (weights_add vadd _ _ _ _))) as (h1 & E1 & N1 & Q1). rewrite R1 in E1. injection E1 as <-.
  destruct (REC op2 x y G2 (fun _ => eq_refl) IN (proj2 (weights_add vadd _ _ _ _))) as (h2 & E2 & N2 & Q2). rewrite R2 in E2. injection E2 as <-.
  destruct (REC (op3 vadd) x y G3 (fun _ => eq_refl) IN eq_refl) as (h3 & E3 & N3 & Q3). rewrite R3 in E3. injection E3 as <-.
  rewrite sums_add in N3, Q3. set (iw := / total_weight flt x y (map (op3 vadd) q)) in *.
  set (v1 := weighted_sum flt x y (map op1 q)) in *. set (v2 := weighted_sum flt x y (map op2 q)) in *.
  replace (vscale iw (vadd v1 v2)) with (vadd (vscale iw v1) (vscale iw v2)) in N3, Q3 by (unfold vadd, vscale, vmap, vmap2; apply V3_eq; cbn; ring).
  clear -N1 N2 N3 Q1 Q2 Q3. set (a := vscale iw v1) in *. set (b := vscale iw v2) in *. set (p1 := pixel_at f (film_rgb g1 sc) x y) in *.
  set (p2 := pixel_at f (film_rgb g2 sc) x y) in *. set (p3 := pixel_at f (film_rgb g3 sc) x y) in *. clearbody a b p1 p2 p3.
  destruct a as [a1 a2 a3], b as [b1 b2 b3], p1 as [r1 r2 r3], p2 as [s1 s2 s3], p3 as [t1 t2 t3].
  unfold vclose, vabs1, spec_ge0, vadd, vmap2 in *. cbn [vx vy vz] in *.
  rewrite (Rabs_right a1), (Rabs_right a2), (Rabs_right a3) in Q1 by lra. rewrite (Rabs_right b1), (Rabs_right b2), (Rabs_right b3) in Q2 by lra.
  rewrite (Rabs_right (a1 + b1)), (Rabs_right (a2 + b2)), (Rabs_right (a3 + b3)) in Q3 by lra.
  destruct Q1 as (Q11 & Q12 & Q13), Q2 as (Q21 & Q22 & Q23), Q3 as (Q31 & Q32 & Q33).
  apply Rabs_le_inv in Q11, Q12, Q13, Q21, Q22, Q23, Q31, Q32, Q33.
  pose proof (Rle_abs t1). pose proof (Rle_abs t2). pose proof (Rle_abs t3).
  repeat split; apply Rabs_le; lra.
Qed.
Print Assumptions C302_sum.

(** ** Scenes lit by point lights *)
Lemma world_ge0 mp items ns np sc mats fuel diffs (A : list lamp) (u : nat -> R) md time depth r k L T i k' n :
  (forall it, In it items -> it_light it = None) -> scene_make mp (full_refine_items items ns np) = Ok sc ->
  (forall j, simple_material (mats j)) -> (forall l, In l A -> spec_ge0 (lp_i l)) -> steady_stream u ->
  whitted (mkW sc mats (map lamp_light A) fuel diffs) u md time depth r k = Some (Ok (L, T, i, k', n)) -> spec_ge0 L.
Proof.
  intros HN HS HM HA U H. set (e := env_of (mkW sc mats [] fuel diffs)).
  assert (BS : forall v q p b, v_bsdf e v q = Ok (p, b) -> steady_bsdf b /\ reflects_light b).
  { intros v r0 p b. unfold e. cbn [env_of v_bsdf]. unfold world_bsdf, isect_bsdf. cbn [w_mats].
    destruct (is_prim v) as [q|]; [|discriminate]. destruct (is_dg v) as [g|]; [|discriminate].
    destruct (shape_shading _ _) as [g'|]; cbn [bind]; [|discriminate].
    destruct (get_bsdf _ _ _ _) as [b'|] eqn:EB; cbn [bind]; [|discriminate]. intros [= _ <-]. split; [|apply (C286_materials _ _ _ _ _ (HM _) EB)].
    refine (C279_materials _ _ _ _ _ _ EB). specialize (HM (gp_material q)). destruct (mats (gp_material q)); try contradiction; exact Logic.I. }
  assert (HB : steady_surfaces e) by (intros v q p b Hv; apply (BS _ _ _ _ Hv)).
  assert (GL : forall l, In l (map lamp_light A) -> gives_light l).
  { intros l Hl. apply in_map_iff in Hl. destruct Hl as (x & <- & Hx). apply lamp_gives. now apply HA. }
  assert (W : related e (fun a b c => c = a) (map lamp_light A) (map lamp_light A) (map lamp_light A) (v_le e) (v_le e) (fun _ _ => vzero) u u u md time depth).
  { apply whole_related; try assumption.
    - reflexivity.
    - intros; congruence.
    - intros; congruence.
    - reflexivity.
    - intros r0 r' v w Hh. symmetry. exact (proj2 (proj2 (world_unlit mp items ns np sc mats fuel diffs HN HS)) r0 r' v w Hh).
    - reflexivity.
    - intros v r0 p n0 wo b j1 j2 j x y j1' j2'. rewrite !local_ones by (reflexivity || (intros l Hl; apply (GL l Hl))).
      destruct (ones e _ _ _ _ _ _ (map lamp_light A)) as [x'|] eqn:O1; cbn [bind]; [|discriminate]. intros [= <- _] _. eauto. }
  destruct (W _ _ _ _ k _ _ _ _ _ _ _ _ _ _ H H) as (_ & _ & _ & _ & L' & k2 & E & ->).
  apply (all_lit e u md time (map lamp_light A) (fun _ _ => vzero) eq_refl (fun _ _ _ _ _ => zero_ge0) (fun v q p b Hv => proj2 (BS v q p b Hv)) GL depth _ _ _ _ _ _ _ _ E).
Qed.

(** A scene of shapes of matte, mirror and glass without area lights: the picture in the light of the lamps [A] and [B] together (listed in any order) is, pixel
    by pixel, the sum of the picture in the light of [A] and the picture in the light of [B], up to three millionths; whatever random numbers the integrator
    draws in the three runs. *)
Theorem C302_world (mp : nat) (items : list item) (ns np : Z) scn mats steps diffs (A B C : list lamp) (cam : sample -> res raydiff) (u1 u2 u : nat -> R)
    (md : Z) (depth : nat) (xr yr : Z) (flt : filt) (c0 c1 c2 c3 : R) (x0 x1 y0 y1 xst yst : Z) (jitter : bool) (o c : R) (orig : sample) (rn : nat -> rnd)
    (k1 k2 k : nat) (sc : R) (fuel : nat) imgA imgB :
  (forall it, In it items -> it_light it = None) -> scene_make mp (full_refine_items items ns np) = Ok scn ->
  (forall j, simple_material (mats j)) -> (forall l, In l (A ++ B) -> spec_ge0 (lp_i l)) ->
  steady_stream u1 -> steady_stream u2 -> steady_stream u -> Permutation C (A ++ B) ->
  proper_filter flt ->
  let f := film_make xr yr flt c0 c1 c2 c3 in
  get_sample_extent f = (x0, x1, y0, y1) ->
  let s := stratified_make (IZR x0) (IZR x1) (IZR y0) (IZR y1) xst yst jitter o c in
  (forall i, rnd_ok s (duplicate orig (xSamples s * ySamples s)) (rn i)) ->
  (Z.to_nat (x1 - x0) * Z.to_nat (y1 - y0) < fuel)%nat ->
  let w lamps := mkW scn mats (map lamp_light lamps) steps diffs in
  world_render (w A) cam u1 md depth s orig rn k1 fuel f sc = Some (Ok imgA) ->
  world_render (w B) cam u2 md depth s orig rn k2 fuel f sc = Some (Ok imgB) ->
  exists img, world_render (w C) cam u md depth s orig rn k fuel f sc = Some (Ok img) /\
    forall x y, in_film f x y -> vclose (3e-6 * vabs1 (pixel_at f img x y)) (pixel_at f img x y) (vadd (pixel_at f imgA x y) (pixel_at f imgB x y)).
Proof.
  intros HN HS HM HA U1 U2 U P PF f GE s RN Hfu w. unfold world_render.
  apply (C302_sum nat nat nat); [exact PF|exact GE|exact RN| |exact Hfu].
  intros a q1 q2 q3 L1 L2 q1' q2' SS. unfold shade, world_cam. destruct (cam a) as [r|]; cbn [bind]; [|discriminate].
  unfold world_seen. cbn [w w_fuel w_scene]. destruct (scene_intersect_p _ _ _) as [[h|]|]; cbn [bind]; try discriminate.
  destruct (h && Rltb 0 1)%bool.
  2:{ intros [= <- _] [= <- _]. exists vzero, vzero, q3. assert (Z0 : spec_ge0 vzero) by (unfold spec_ge0, vzero; cbn; lra).
      assert (Z1 : vadd vzero vzero = vzero) by (apply V3_eq; cbn; lra). rewrite Z1. rewrite !sanitise_idem_black. auto 6. }
  unfold world_li. set (r1 := scale_differential r _).
  destruct (whitted (w A) u1 md (stime a) depth r1 q1) as [[[[[[La Ta] ia] ka] na]|]|] eqn:WA; cbn [bind]; try discriminate. intros [= <- _].
  destruct (whitted (w B) u2 md (stime a) depth r1 q2) as [[[[[[Lb Tb] ib] kb] nb]|]|] eqn:WB; cbn [bind]; try discriminate. intros [= <- _].
  assert (OT : forall j, one_transmission (mats j)) by (intros j; specialize (HM j); destruct (mats j); try contradiction; exact Logic.I).
  destruct (C279_world mp items ns np scn mats steps diffs A B C u1 u2 u md (stime a) depth r1 q1 q2 q3 _ _ _ _ _ _ _ _ _ _ HN HS OT U1 U2 U P WA WB)
    as (T & i' & k' & m & WC).
  pose proof (world_ge0 mp items ns np scn mats steps diffs A u1 md (stime a) depth r1 q1 _ _ _ _ _ HN HS HM (fun l Hl => HA l (in_or_app _ _ _ (or_introl Hl))) U1 WA) as GA.
  pose proof (world_ge0 mp items ns np scn mats steps diffs B u2 md (stime a) depth r1 q2 _ _ _ _ _ HN HS HM (fun l Hl => HA l (in_or_app _ _ _ (or_intror Hl))) U2 WB) as GB.
  fold (w C) in WC. rewrite WC. cbn [bind].
  assert (K : forall v, spec_ge0 v -> sanitise (vmap (fun x => emul x (Fin 1)) (vmap Fin v)) = vmap Fin v).
  { intros v V0. replace (vmap (fun x => emul x (Fin 1)) (vmap Fin v)) with (vmap Fin v); [apply sanitise_keeps; exact V0|].
    unfold vmap; cbn. now rewrite !Rmult_1_r. }
  exists La, Lb, k'. rewrite (K La GA), (K Lb GB), (K _ (P_Reflection2.add_ge0 _ _ GA GB)). auto 6.
Qed.
Print Assumptions C302_world.

(** The hypotheses hold for the picture of C275_ex: two lamps in the place of its lamp. *)
Example C302_ex : exists c scn img img2,
  let w lamps := mkW scn (fun k => Matte (fun _ => w_colour k) (fun _ => 0) None) (map lamp_light lamps) (scene_size scn) (fun _ _ _ _ _ => (false, vzero, vzero, vzero, vzero)) in
  let s := stratified_make (IZR 0) (IZR 2) (IZR 0) (IZR 3) 1 1 true 0 1 in let f := film_make 1 2 (box_filter (/2) (/2)) 0 1 0 1 in
  persp_make v_still (-1) 1 (-1) 1 0 1 0 1 90 1 2 = Ok c /\ scene_make 4 (full_refine_items v_items 3 3) = Ok scn /\
  world_render (w [v_lamp]) (persp_raydiff c) (fun _ => 0) 5 1 s (mkS 0 0 0 0 0 [] [] [] []) (fun _ => ex_rnd) 0 100 f 1 = Some (Ok img) /\
  world_render (w [v_lamp; v_lamp]) (persp_raydiff c) (fun _ => /2) 5 1 s (mkS 0 0 0 0 0 [] [] [] []) (fun _ => ex_rnd) 7 100 f 1 = Some (Ok img2) /\
  in_film f 0 1 /\
  vclose (3e-6 * vabs1 (pixel_at f img2 0 1)) (pixel_at f img2 0 1) (vadd (pixel_at f img 0 1) (pixel_at f img 0 1)).
Proof.
  destruct C275_ex as (c & PM & _ & _ & scn & img & l & SM & R1 & _).
  assert (EX : xstart (film_make 1 2 (box_filter (/2) (/2)) 0 1 0 1) = 0%Z) by (cbn; rewrite Rmult_0_r; apply (Zceil_IZR 0)).
  assert (EY : ystart (film_make 1 2 (box_filter (/2) (/2)) 0 1 0 1) = 0%Z) by (cbn; rewrite Rmult_0_r; apply (Zceil_IZR 0)).
  assert (CX : xcnt (film_make 1 2 (box_filter (/2) (/2)) 0 1 0 1) = 1%Z).
  { cbn. rewrite Rmult_0_r, Rmult_1_r, (Zceil_IZR 0), (Zceil_IZR 1). reflexivity. }
  assert (CY : ycnt (film_make 1 2 (box_filter (/2) (/2)) 0 1 0 1) = 2%Z).
  { cbn. rewrite Rmult_0_r, Rmult_1_r, (Zceil_IZR 0), (Zceil_IZR 2). reflexivity. }
  destruct (C302_world 4 v_items 3 3 scn (fun k => Matte (fun _ => w_colour k) (fun _ => 0) None) (scene_size scn) (fun _ _ _ _ _ => (false, vzero, vzero, vzero, vzero))
    [v_lamp] [v_lamp] [v_lamp; v_lamp] (persp_raydiff c) (fun _ => 0) (fun _ => 0) (fun _ => /2) 5 1
    1 2 (box_filter (/2) (/2)) 0 1 0 1 0 2 0 3 1 1 true 0 1 (mkS 0 0 0 0 0 [] [] [] []) (fun _ => ex_rnd) 0 0 7 1 100 img img) as (img2 & R2 & G).
  - intros it [<-|[]]. reflexivity.
  - exact SM.
  - intros j. cbn. intros. lra.
  - intros q [<-|[<-|[]]]; unfold spec_ge0, v_lamp, spec; cbn; lra.
  - intros j. unfold in_unit. lra.
  - intros j. unfold in_unit. lra.
  - intros j. unfold in_unit. lra.
  - apply Permutation_refl.
  - unfold proper_filter; cbn. repeat split; intros; lra.
  - unfold get_sample_extent. rewrite EX, EY, CX, CY. cbn [ffilt film_make f_xw f_yw box_filter].
    replace (0 + /2 - /2) with (IZR 0) by lra. replace (0 + /2 + 1 + /2) with (IZR 2) by lra. replace (0 + /2 + 2 + /2) with (IZR 3) by lra.
    now rewrite !Zfloor_IZR.
  - intros k. assert (HF : in01 (/2)) by (unfold in01; lra). unfold rnd_ok. cbn -[Pos.to_nat]. change (Pos.to_nat 1) with 1%nat. cbn. split; [auto|].
    split; [apply Permutation_refl|]. split; [apply Permutation_refl|]. split; [auto|].
    intros i j Hi. destruct i; [|lia]. destruct j; split; apply Permutation_refl.
  - cbn. lia.
  - exact R1.
  - exact R1.
  - assert (IN : in_film (film_make 1 2 (box_filter (/2) (/2)) 0 1 0 1) 0 1) by (unfold in_film; rewrite EX, EY, CX, CY; lia).
    exists c, scn, img, img2. split; [exact PM|]. split; [exact SM|]. split; [exact R1|]. split; [exact R2|]. split; [exact IN|]. exact (G 0%Z 1%Z IN).
Qed.
