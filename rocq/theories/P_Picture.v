(** Proofs: the picture of a render whose samples each see something. *)
From Coq Require Import Reals Lra Lia List Bool ZArith Permutation.
From Verif Require Import Base M_Geometry M_Sampler M_Film M_Renderer S_Sampler S_Film P_Sampler P_Film P_Film3 P_Renderer M_Render P_Render S_Picture.
Import ListNotations.
Open Scope R_scope.

Section Pic.
Context {W : Type} (cam : sample -> W -> res (R * raydiff * W)) (hitp : raydiff -> W -> res (bool * W))
  (li : raydiff -> sample -> W -> res (V3 E * W)) (sees : sample -> vec -> Prop).
Variables (wx0 wx1 wy0 wy1 : Z) (xst yst : Z) (jitter : bool) (o c : R).
Hypotheses (HX : (wx0 < wx1)%Z) (HY : (wy0 < wy1)%Z).
Let s0 := stratified_make (IZR wx0) (IZR wx1) (IZR wy0) (IZR wy1) xst yst jitter o c.
Let n := (xSamples s0 * ySamples s0)%nat.
Variables (orig : sample) (rn : nat -> rnd).
Hypothesis RN : forall k, rnd_ok s0 (duplicate orig n) (rn k).
Hypothesis HS : forall smp w, sent s0 orig wx0 wx1 wy0 wy1 smp -> exists r w1 h w2, cam smp w = Ok (1, r, w1) /\
  hitp (scale_differential r (1 / sqrt (INR n))) w1 = Ok (h, w2) /\ (h = false -> sees smp vzero) /\
  (h = true -> exists L w3, li (scale_differential r (1 / sqrt (INR n))) smp w2 = Ok (vmap Fin L, w3) /\ vle vzero L /\ sees smp L).

Definition seen_by (smp : sample) (L : V3 E) : Prop := exists v, L = vmap Fin v /\ vle vzero v /\ sees smp v.
Lemma shade_by smp w : sent s0 orig wx0 wx1 wy0 wy1 smp -> exists L w', shade cam hitp li false n smp w = Ok (L, w') /\ seen_by smp L.
Proof.
  intros SG. unfold shade. destruct (HS smp w SG) as (r & w1 & h & w2 & -> & HP & H0 & H1). cbn [bind]. rewrite HP. cbn [bind].
  replace (Rltb 0 1) with true by (symmetry; apply Rltb_true; lra). rewrite andb_true_r. destruct h.
  - destruct (H1 eq_refl) as (L & w3 & -> & A & B). cbn [bind].
    eexists _, _. split; [reflexivity|]. exists L. split; [|auto].
    replace (vmap (fun x => emul x (Fin 1)) (vmap Fin L)) with (vmap Fin L).
    + apply sanitise_keeps; assumption.
    + unfold vmap; cbn. now rewrite !Rmult_1_r.
  - eexists _, _. split; [reflexivity|]. exists vzero. split; [apply sanitise_idem_black|]. split; [unfold vle; lra|auto].
Qed.
Lemma shade_all_by l : List.Forall (sent s0 orig wx0 wx1 wy0 wy1) l -> forall w, exists Ls w', shade_all cam hitp li false n l w = Ok (Ls, w') /\
  List.Forall2 seen_by l Ls.
Proof.
  induction 1 as [|s l H _ IH]; intros w; cbn [shade_all]; [eexists _, _; split; [reflexivity|constructor]|].
  destruct (shade_by s w H) as (L & w1 & -> & HL). cbn [bind].
  destruct (IH w1) as (Ls & w2 & -> & HLs). cbn [bind]. eexists _, _. split; [reflexivity|]. now constructor.
Qed.
Lemma combine_by l Ls : List.Forall2 seen_by l Ls -> List.Forall (fun a => seen_by (fst a) (snd a)) (combine l Ls).
Proof. induction 1; cbn; constructor; auto. Qed.
Lemma loop_by : forall m k samples w fuel, (k + m = Z.to_nat (wx1 - wx0) * Z.to_nat (wy1 - wy0))%nat -> (m < fuel)%nat ->
  length samples = n ->
  (forall i, n1D (nth i samples dsmp) = n1D (nth i (duplicate orig n) dsmp) /\
             n2D (nth i samples dsmp) = n2D (nth i (duplicate orig n) dsmp)) ->
  exists adds, task_loop cam hitp li false n fuel (st wx0 wx1 wy0 wy1 xst yst jitter o c k) samples rn k w = Some (Ok adds) /\
    List.Forall (fun a => seen_by (fst a) (snd a)) adds.
Proof.
  induction m as [|m IH]; intros k samples w fuel HK HF HL HN; (destruct fuel as [|fuel]; [lia|]); cbn [task_loop].
  - replace k with (Z.to_nat (wx1 - wx0) * Z.to_nat (wy1 - wy0))%nat by lia.
    rewrite (st_end wx0 wx1 wy0 wy1 xst yst jitter o c HX HY). eauto.
  - assert (RO : rnd_ok s0 samples (rn k)).
    { eapply rnd_ok_ext; [| |apply RN]; [unfold duplicate; rewrite repeat_length; exact HL|exact HN]. }
    destruct (st_step wx0 wx1 wy0 wy1 xst yst jitter o c HX HY k samples (rn k)) as (smp' & G & CG);
      [lia|exact HL|exact RO|].
    rewrite G. destruct (gen_keeps _ _ _ _ _ _ G) as [KL KN].
    assert (SF : List.Forall (sent s0 orig wx0 wx1 wy0 wy1) smp').
    { apply List.Forall_forall. intros a Ha. destruct (In_nth _ _ dsmp Ha) as (i & Hi & <-). rewrite KL, HL in Hi.
      destruct CG as (_ & CG & _). rewrite HL in CG. specialize (CG i Hi).
      exists (pxk wx0 wx1 k), (pyk wx0 wx1 wy0 k).
      assert (D0 : (0 < Z.to_nat (wx1 - wx0))%nat) by lia.
      split; [|split].
      - unfold pxk. pose proof (Nat.mod_upper_bound k (Z.to_nat (wx1 - wx0)) ltac:(lia)). lia.
      - unfold pyk. assert (k / Z.to_nat (wx1 - wx0) < Z.to_nat (wy1 - wy0))%nat by (apply Nat.div_lt_upper_bound; lia). lia.
      - eapply sample_good_old; [| |exact CG].
        + destruct (HN i) as [-> _]. now rewrite (dup_nth wx0 wx1 wy0 wy1 xst yst jitter o c orig).
        + destruct (HN i) as [_ ->]. now rewrite (dup_nth wx0 wx1 wy0 wy1 xst yst jitter o c orig). }
    destruct (shade_all_by smp' SF w) as (Ls & w' & SA & F2). rewrite SA.
    destruct (IH (S k) smp' w' fuel) as (rest & T & FR); [lia|lia|congruence| |].
    { intros i. destruct (KN i) as [-> ->]. apply HN. }
    rewrite T. eexists. split; [reflexivity|]. apply List.Forall_app. split; [|exact FR]. now apply combine_by.
Qed.
End Pic.

Definition strip (a : sample * V3 E) : sample * vec := (fst a, match finite3 (snd a) with Some v => v | None => vzero end).
Lemma strip_op adds : (forall a, In a adds -> exists v, snd a = vmap Fin v) -> map to_op adds = map contribution (map strip adds).
Proof.
  intros H. rewrite map_map. apply map_ext_in. intros a Ha. destruct (H a Ha) as (v & E). unfold to_op, contribution, strip. rewrite E.
  destruct v as [a1 a2 a3]. reflexivity.
Qed.

Theorem picture_main (W : Type) (cam : sample -> W -> res (R * raydiff * W)) (hitp : raydiff -> W -> res (bool * W))
    (li : raydiff -> sample -> W -> res (V3 E * W)) (sees : sample -> vec -> Prop)
    (xr yr : Z) (flt : filt) (c0 c1 c2 c3 : R) (x0 x1 y0 y1 xst yst : Z) (jitter : bool) (o c : R)
    (orig : sample) (rn : nat -> rnd) (w : W) (sc : R) (fuel : nat) :
  proper_filter flt ->
  let f := film_make xr yr flt c0 c1 c2 c3 in
  (x0 <= xstart f)%Z -> (xstart f + xcnt f <= x1)%Z -> (y0 <= ystart f)%Z -> (ystart f + ycnt f <= y1)%Z ->
  let s := stratified_make (IZR x0) (IZR x1) (IZR y0) (IZR y1) xst yst jitter o c in
  let n := (xSamples s * ySamples s)%nat in
  (forall k, rnd_ok s (duplicate orig n) (rn k)) ->
  (forall smp w, sent s orig x0 x1 y0 y1 smp -> exists r w1 h w2, cam smp w = Ok (1, r, w1) /\
     hitp (scale_differential r (1 / sqrt (INR n))) w1 = Ok (h, w2) /\ (h = false -> sees smp vzero) /\
     (h = true -> exists L w3, li (scale_differential r (1 / sqrt (INR n))) smp w2 = Ok (vmap Fin L, w3) /\ vle vzero L /\ sees smp L)) ->
  (Z.to_nat (x1 - x0) * Z.to_nat (y1 - y0) < fuel)%nat ->
  exists img l, render cam hitp li s orig rn w fuel f sc = Some (Ok img) /\
    raster s orig x0 x1 y0 y1 n l /\ List.Forall (fun a => sent s orig x0 x1 y0 y1 (fst a) /\ sees (fst a) (snd a)) l /\ pictures f img l.
Proof.
  intros (Hxw & Hyw & NN & PP) f X0 X1 Y0 Y1 s n RN HS Hfu.
  assert (XC : (0 < xcnt f)%Z) by (unfold f, film_make; cbn [xcnt]; lia).
  assert (YC : (0 < ycnt f)%Z) by (unfold f, film_make; cbn [ycnt]; lia).
  assert (HX : (x0 < x1)%Z) by lia. assert (HY : (y0 < y1)%Z) by lia.
  destruct (loop_by cam hitp li sees x0 x1 y0 y1 xst yst jitter o c HX HY orig rn RN HS
     (Z.to_nat (x1 - x0) * Z.to_nat (y1 - y0)) 0 (duplicate orig n) w fuel) as (adds & T & SB); [reflexivity|exact Hfu|apply repeat_length|auto|].
  fold s in T. fold n in T.
  destruct (loop_spec cam hitp li false x0 x1 y0 y1 xst yst jitter o c HX HY orig rn RN (Z.to_nat (x1 - x0) * Z.to_nat (y1 - y0)) 0
     (duplicate orig n) w fuel) as (out & T' & P); [reflexivity|exact Hfu|apply repeat_length|auto|].
  fold s in T'. fold n in T'. rewrite T in T'. injection T' as <-.
  destruct (P adds eq_refl) as (PL & _ & PG). fold s in PL, PG. fold n in PL, PG.
  rewrite List.Forall_forall in SB.
  assert (FI : forall a, In a adds -> exists v, snd a = vmap Fin v).
  { intros a Ha. destruct (SB a Ha) as (v & E & _). eauto. }
  assert (Hn : (0 < n)%nat). { unfold n, s, stratified_make; cbn [xSamples ySamples]. nia. }
  set (l := map strip adds).
  assert (RA : raster s orig x0 x1 y0 y1 n l).
  { split; [unfold l; rewrite map_length; exact PL|]. intros j i a Hj Hi E. unfold l in E. rewrite nth_error_map in E.
    destruct (nth_error adds (j * n + i)) as [a0|] eqn:Q; [|discriminate E]. cbn in E. injection E as <-. cbn [strip fst].
    pose proof (PG j i Hj Hi) as G. rewrite (nth_error_nth _ _ _ Q) in G. cbn [Nat.add] in G. exact G. }
  assert (SN : List.Forall (fun a => sent s orig x0 x1 y0 y1 (fst a) /\ sees (fst a) (snd a)) l).
  { apply List.Forall_forall. intros a Ha. split.
    - destruct (In_nth_error _ _ Ha) as (q & Q). destruct RA as (RL & RG).
      assert (Hq : (q < length l)%nat) by (apply nth_error_Some; congruence).
      set (wd := Z.to_nat (x1 - x0)) in *. set (ht := Z.to_nat (y1 - y0)) in *.
      assert (Hj : (q / n < wd * ht)%nat) by (apply Nat.div_lt_upper_bound; lia).
      assert (Hi : (q mod n < n)%nat) by (apply Nat.mod_upper_bound; lia).
      pose proof (Nat.div_mod q n ltac:(lia)) as DM. rewrite DM, (Nat.mul_comm n) in Q.
      pose proof (RG (q / n)%nat (q mod n)%nat a Hj Hi Q) as G.
      assert (W0 : (0 < wd)%nat) by (unfold wd; lia).
      eexists _, _. split; [|split; [|exact G]].
      + pose proof (Nat.mod_upper_bound (q / n) wd ltac:(lia)). unfold wd in *. lia.
      + assert ((q / n) / wd < ht)%nat by (apply Nat.div_lt_upper_bound; lia). unfold ht in *. lia.
    - unfold l in Ha. apply in_map_iff in Ha. destruct Ha as (a0 & <- & Ha). destruct (SB a0 Ha) as (v & E & V0 & SV).
      unfold strip. rewrite E. destruct v; cbn in *. exact SV. }
  assert (TW : forall x y, in_film f x y -> 0 < total_weight flt x y (map to_op adds)).
  { intros x y [IX IY]. set (j := (Z.to_nat (y - y0) * Z.to_nat (x1 - x0) + Z.to_nat (x - x0))%nat).
    assert (Hd : (Z.to_nat (x - x0) < Z.to_nat (x1 - x0))%nat) by lia.
    assert (Hj : (j < Z.to_nat (x1 - x0) * Z.to_nat (y1 - y0))%nat).
    { unfold j. assert (S (Z.to_nat (y - y0)) <= Z.to_nat (y1 - y0))%nat by lia. nia. }
    pose proof (PG j 0%nat Hj Hn) as (GX & GY & _).
    set (a := nth (j * n + 0) adds (dsmp, black)) in *.
    assert (Ha : In a adds). { apply nth_In. rewrite PL. set (q := (Z.to_nat (x1 - x0) * Z.to_nat (y1 - y0))%nat) in *. clearbody n q j. nia. }
    assert (EX : pxk x0 x1 (0 + j) = x).
    { unfold pxk. cbn [Nat.add]. unfold j. rewrite Nat.add_comm, Nat.mod_add, Nat.mod_small by lia. lia. }
    assert (EY : pyk x0 x1 y0 (0 + j) = y).
    { unfold pyk. cbn [Nat.add]. unfold j. rewrite Nat.add_comm, Nat.div_add, Nat.div_small by lia. lia. }
    rewrite EX in GX. rewrite EY in GY.
    destruct (FI a Ha) as (v & Ev).
    assert (CV : covers flt (imageX (fst a)) (imageY (fst a)) x y).
    { split; apply Rabs_le; lra. }
    apply rsum_pos with (x := op_weight flt x y (to_op a)).
    - intros z Hz. apply in_map_iff in Hz. destruct Hz as (op & <- & Hop). destruct op; cbn [op_weight]; [|lra].
      destruct (coversb _ _ _ _ _); [apply NN|lra].
    - apply in_map. now apply in_map.
    - unfold to_op. rewrite Ev. destruct v as [v1 v2 v3]. cbn [vmap finite3 vx vy vz op_weight].
      replace (coversb _ _ _ _ _) with true by (symmetry; now apply coversb_spec).
      destruct CV as [C1 C2]. apply PP; apply cell_mid_range; auto; lra. }
  assert (INF : in_film f (xstart f) (ystart f)) by (split; lia).
  (* an upper bound for everything seen *)
  set (big := fold_right (fun op m => vadd m (op_rad op)) vzero (map to_op adds)).
  assert (NNO : forall op, In op (map to_op adds) -> vle vzero (op_rad op)).
  { intros op HI. apply in_map_iff in HI. destruct HI as (a & <- & Ha). destruct (SB a Ha) as (v & Ev & A & _).
    unfold to_op. rewrite Ev. destruct v as [v1 v2 v3]. cbn in *. exact A. }
  assert (BB : forall os, (forall op, In op os -> vle vzero (op_rad op)) ->
    vle vzero (fold_right (fun op m => vadd m (op_rad op)) vzero os) /\ forall op, In op os -> vle (op_rad op) (fold_right (fun op m => vadd m (op_rad op)) vzero os)).
  { induction os as [|op os IH]; cbn [fold_right In]; intros H; [split; [unfold vle; lra|tauto]|].
    destruct IH as (I1 & I2); [intros; apply H; now right|]. pose proof (H op (or_introl eq_refl)) as H0.
    split; [unfold vle, vadd, vmap2 in *; cbn in *; lra|]. intros op' [<-|HI].
    - unfold vle, vadd, vmap2 in *; cbn in *; lra.
    - specialize (I2 op' HI). unfold vle, vadd, vmap2 in *; cbn in *; lra. }
  destruct (BB _ NNO) as (_ & BB2). fold big in BB2.
  assert (BD : forall x y sx sy L, In (Add sx sy L) (map to_op adds) -> covers flt sx sy x y -> vle vzero L /\ vle L big).
  { intros x y sx sy L HI _. split; [exact (NNO _ HI)|exact (BB2 _ HI)]. }
  assert (SP : forall x y, splat_sum x y (map to_op adds) = vzero).
  { intros x y. unfold splat_sum. clear. induction adds as [|a l IH]; [reflexivity|]. cbn [map vsum]. rewrite IH.
    unfold to_op. destruct (finite3 (snd a)); cbn [op_splat]; unfold vadd, vzero, vmap2; cbn; f_equal; lra. }
  destruct (average_main xr yr flt c0 c1 c2 c3 (map to_op adds) sc (xstart f) (ystart f) vzero big ltac:(lra) ltac:(lra) NN INF (TW _ _ INF) (BD _ _))
    as (g & _ & RG & _).
  pose proof (deposit_run adds FI f g RG) as DR.
  exists (film_rgb g sc), l. split; [|split; [exact RA|split; [exact SN|]]].
  { unfold render, task. change (maximum_sample_cnt s) with n. rewrite st_0 in T by assumption. fold s in T. fold n. rewrite T, DR. reflexivity. }
  intros x y IN.
  destruct (average_main xr yr flt c0 c1 c2 c3 (map to_op adds) sc x y vzero big ltac:(lra) ltac:(lra) NN IN (TW _ _ IN) (BD _ _))
    as (g' & avg & RG' & MN & A & B & C). rewrite RG in RG'. injection RG' as <-.
  exists avg. split; [|split; [exact A|]].
  { unfold pixel_mean. unfold l. rewrite <- strip_op by exact FI. split; [exact (TW _ _ IN)|exact MN]. }
  rewrite SP in C. fold f in C.
  replace (1e-6 * vabs1 avg + Rabs sc * (1e-6 * vabs1 vzero)) with (1e-6 * vabs1 avg) in C.
  2:{ unfold vabs1, vzero; cbn. rewrite Rabs_R0. lra. }
  replace (vadd (vmap (Rmax 0) avg) (vscale sc vzero)) with avg in C; [exact C|].
  destruct A as (A1 & A2 & A3). cbn in A1, A2, A3. destruct avg as [p q r].
  unfold vadd, vmap, vmap2, vscale, vzero; cbn in *. rewrite !Rmax_right by lra. f_equal; lra.
Qed.
