(** Proofs: the rendered picture. *)
From Coq Require Import Reals Lra Lia List Bool ZArith Permutation.
From Verif Require Import Base M_Geometry M_Sampler M_Film M_Renderer S_Sampler S_Film P_Sampler P_Film P_Film3 P_Renderer M_Render.
Import ListNotations.
Open Scope R_scope.

Definition to_op (a : sample * V3 E) : film_op :=
  match finite3 (snd a) with Some v => Add (imageX (fst a)) (imageY (fst a)) v | None => Add 0 0 vzero end.

Lemma deposit_run adds : (forall a, In a adds -> exists v, snd a = vmap Fin v) ->
  forall f g, run_ops f (map to_op adds) = Ok g -> deposit_all f adds = Some (Ok g).
Proof.
  induction adds as [|[s L] l IH]; intros H f g; cbn [map run_ops deposit_all].
  - intros [= <-]. reflexivity.
  - destruct (H (s, L) (or_introl eq_refl)) as (v & Ev). cbn [snd] in Ev. subst L.
    unfold to_op at 1. cbn [snd fst]. destruct v as [a b c]. cbn [vmap finite3 vx vy vz film_step].
    destruct (add_sample f (imageX s) (imageY s) (mkV a b c)) as [f'|x]; cbn [bind]; [|discriminate].
    apply IH. intros a' Ha'. apply H. now right.
Qed.

Section Sees.
Context {W : Type} (cam : sample -> W -> res (R * raydiff * W)) (hitp : raydiff -> W -> res (bool * W))
  (li : raydiff -> sample -> W -> res (V3 E * W)) (lo hi : vec).
Hypothesis Hcam : forall smp w, exists r w', cam smp w = Ok (1, r, w').
Hypothesis Hhit : forall r w, exists h w', hitp r w = Ok (h, w') /\ (h = false -> vle lo vzero /\ vle vzero hi).
Hypothesis Hli : forall r smp w, exists L w', li r smp w = Ok (vmap Fin L, w') /\ vle lo L /\ vle L hi.
Hypothesis Hlo : vle vzero lo.

Definition seen (L : V3 E) : Prop := exists v, L = vmap Fin v /\ vle lo v /\ vle v hi.
Lemma sanitise_keeps v : vle vzero v -> sanitise (vmap Fin v) = vmap Fin v.
Proof.
  intros (A & B & C). cbn in A, B, C. unfold sanitise. cbn [has_nans is_nan vmap vx vy vz orb].
  unfold ey. cbn [vmap vx vy vz emul eadd eltb eeqb].
  assert (Rltb (0.212671 * vx v + 0.715160 * vy v + 0.072169 * vz v) (- EPS) = false) as ->.
  { apply Rltb_false. unfold EPS. lra. }
  reflexivity.
Qed.
Lemma shade_seen spp smp w : exists L w', shade cam hitp li false spp smp w = Ok (L, w') /\ seen L.
Proof.
  unfold shade. destruct (Hcam smp w) as (r & w1 & ->). cbn [bind].
  destruct (Hhit (scale_differential r (1 / sqrt (INR spp))) w1) as (h & w2 & -> & Hf). cbn [bind].
  replace (Rltb 0 1) with true by (symmetry; apply Rltb_true; lra). rewrite andb_true_r. destruct h.
  - destruct (Hli (scale_differential r (1 / sqrt (INR spp))) smp w2) as (L & w3 & -> & A & B). cbn [bind].
    eexists _, _. split; [reflexivity|]. exists L. split; [|auto].
    replace (vmap (fun x => emul x (Fin 1)) (vmap Fin L)) with (vmap Fin L).
    + apply sanitise_keeps. unfold vle in *. cbn in *. lra.
    + unfold vmap; cbn. now rewrite !Rmult_1_r.
  - eexists _, _. split; [reflexivity|]. exists vzero. split; [|now apply Hf].
    apply sanitise_idem_black.
Qed.
Lemma shade_all_seen spp l : forall w, exists Ls w', shade_all cam hitp li false spp l w = Ok (Ls, w') /\ List.Forall seen Ls.
Proof.
  induction l as [|s l IH]; intros w; cbn [shade_all]; [eexists _, _; split; [reflexivity|constructor]|].
  destruct (shade_seen spp s w) as (L & w1 & -> & HL). cbn [bind].
  destruct (IH w1) as (Ls & w2 & -> & HLs). cbn [bind]. eexists _, _. split; [reflexivity|]. now constructor.
Qed.
Lemma task_seen spp fuel : forall s samples rn k w out, task_loop cam hitp li false spp fuel s samples rn k w = Some out ->
  match out with
  | Ok adds => List.Forall (fun a => seen (snd a)) adds
  | Err x => True
  end.
Proof.
  induction fuel as [|fuel IH]; intros s samples rn k w out; cbn [task_loop]; [discriminate|].
  destruct (generate s samples (rn k)) as [[[[] samples'] s']|x]; [| |intros [= <-]; exact I].
  - destruct (shade_all_seen spp samples' w) as (Ls & w' & -> & HLs).
    destruct (task_loop cam hitp li false spp fuel s' samples' rn (S k) w') as [[rest|x]|] eqn:T; [| |discriminate]; intros [= <-]; [|exact I].
    apply List.Forall_app. split; [|exact (IH _ _ _ _ _ _ T)].
    apply List.Forall_forall. intros [a b] Hab. cbn. rewrite List.Forall_forall in HLs. apply HLs. eapply in_combine_r; eauto.
  - intros [= <-]. constructor.
Qed.

(** the loop never fails *)
Section Window.
Variables (wx0 wx1 wy0 wy1 : Z) (xst yst : Z) (jitter : bool) (o c : R).
Hypotheses (HX : (wx0 < wx1)%Z) (HY : (wy0 < wy1)%Z).
Let s0 := stratified_make (IZR wx0) (IZR wx1) (IZR wy0) (IZR wy1) xst yst jitter o c.
Let n := (xSamples s0 * ySamples s0)%nat.
Variables (orig : sample) (rn : nat -> rnd).
Hypothesis RN : forall k, rnd_ok s0 (duplicate orig n) (rn k).
Lemma loop_ok : forall m k samples w fuel, (k + m = Z.to_nat (wx1 - wx0) * Z.to_nat (wy1 - wy0))%nat -> (m < fuel)%nat ->
  length samples = n ->
  (forall i, n1D (nth i samples dsmp) = n1D (nth i (duplicate orig n) dsmp) /\
             n2D (nth i samples dsmp) = n2D (nth i (duplicate orig n) dsmp)) ->
  exists adds, task_loop cam hitp li false n fuel (st wx0 wx1 wy0 wy1 xst yst jitter o c k) samples rn k w = Some (Ok adds).
Proof.
  induction m as [|m IH]; intros k samples w fuel HK HF HL HN; (destruct fuel as [|fuel]; [lia|]); cbn [task_loop].
  - replace k with (Z.to_nat (wx1 - wx0) * Z.to_nat (wy1 - wy0))%nat by lia.
    rewrite (st_end wx0 wx1 wy0 wy1 xst yst jitter o c HX HY). eauto.
  - assert (RO : rnd_ok s0 samples (rn k)).
    { eapply rnd_ok_ext; [| |apply RN]; [unfold duplicate; rewrite repeat_length; exact HL|exact HN]. }
    destruct (st_step wx0 wx1 wy0 wy1 xst yst jitter o c HX HY k samples (rn k)) as (smp' & G & CG);
      [lia|exact HL|exact RO|].
    rewrite G. destruct (gen_keeps _ _ _ _ _ _ G) as [KL KN].
    destruct (shade_all_seen n smp' w) as (Ls & w' & SA & _). rewrite SA.
    destruct (IH (S k) smp' w' fuel) as (rest & T); [lia|lia|congruence| |].
    { intros i. destruct (KN i) as [-> ->]. apply HN. }
    rewrite T. eauto.
Qed.
End Window.
End Sees.

Lemma cell_mid_range w d : 0 < w -> Rabs d <= w -> 0 <= cell_mid w d < w.
Proof.
  intros Hw Hd. unfold cell_mid.
  assert (0 <= 16 * Rabs d / w). { apply Rmult_le_pos; [pose proof (Rabs_pos d); lra|]. left. now apply Rinv_0_lt_compat. }
  assert (B : (0 <= Zfloor (16 * Rabs d / w))%Z) by (apply Zfloor_ge; exact H).
  set (m := Z.min 15 (Zfloor (16 * Rabs d / w))). assert (Hm : (0 <= m <= 15)%Z) by (unfold m; lia).
  destruct Hm as [M1 M2]. apply IZR_le in M1, M2.
  assert (0 < w / 16) by lra. split; [nra|]. nra.
Qed.
Lemma rsum_ge0 l : (forall x, In x l -> 0 <= x) -> 0 <= rsum l.
Proof. induction l as [|x l IH]; cbn; intros H; [lra|]. pose proof (H x (or_introl eq_refl)). specialize (IH (fun y Hy => H y (or_intror Hy))). lra. Qed.
Lemma rsum_pos l x : (forall y, In y l -> 0 <= y) -> In x l -> 0 < x -> 0 < rsum l.
Proof.
  induction l as [|y l IH]; cbn; intros H Hx P; [destruct Hx|].
  pose proof (H y (or_introl eq_refl)). pose proof (rsum_ge0 l (fun z Hz => H z (or_intror Hz))).
  destruct Hx as [->|Hx]; [lra|]. specialize (IH (fun z Hz => H z (or_intror Hz)) Hx P). lra.
Qed.

Theorem render_main (W : Type) (cam : sample -> W -> res (R * raydiff * W)) (hitp : raydiff -> W -> res (bool * W))
    (li : raydiff -> sample -> W -> res (V3 E * W)) (lo hi : vec)
    (xr yr : Z) (flt : filt) (c0 c1 c2 c3 : R) (x0 x1 y0 y1 xst yst : Z) (jitter : bool) (o c : R)
    (orig : sample) (rn : nat -> rnd) (w : W) (sc : R) (fuel : nat) :
  (forall smp w, exists r w', cam smp w = Ok (1, r, w')) ->
  (forall r w, exists h w', hitp r w = Ok (h, w') /\ (h = false -> vle lo vzero /\ vle vzero hi)) ->
  (forall r smp w, exists L w', li r smp w = Ok (vmap Fin L, w') /\ vle lo L /\ vle L hi) ->
  vle vzero lo ->
  /2 <= f_xw flt -> /2 <= f_yw flt -> (forall a b, 0 <= f_eval flt a b) ->
  (forall a b, 0 <= a < f_xw flt -> 0 <= b < f_yw flt -> 0 < f_eval flt a b) ->
  let f := film_make xr yr flt c0 c1 c2 c3 in
  (x0 <= xstart f)%Z -> (xstart f + xcnt f <= x1)%Z -> (y0 <= ystart f)%Z -> (ystart f + ycnt f <= y1)%Z ->
  let s := stratified_make (IZR x0) (IZR x1) (IZR y0) (IZR y1) xst yst jitter o c in
  (forall k, rnd_ok s (duplicate orig (xSamples s * ySamples s)) (rn k)) ->
  (Z.to_nat (x1 - x0) * Z.to_nat (y1 - y0) < fuel)%nat ->
  exists img, render cam hitp li s orig rn w fuel f sc = Some (Ok img) /\
    forall x y, in_film f x y -> exists avg, vle lo avg /\ vle avg hi /\
      vclose (1e-6 * vabs1 avg) (nth (Z.to_nat (x - xstart f)) (nth (Z.to_nat (y - ystart f)) img []) vzero) avg.
Proof.
  intros Hcam Hhit Hli Hlo Hxw Hyw NN PP f X0 X1 Y0 Y1 s RN Hfu.
  assert (XC : (0 < xcnt f)%Z) by (unfold f, film_make; cbn [xcnt]; lia).
  assert (YC : (0 < ycnt f)%Z) by (unfold f, film_make; cbn [ycnt]; lia).
  assert (HX : (x0 < x1)%Z) by lia. assert (HY : (y0 < y1)%Z) by lia.
  set (n := (xSamples s * ySamples s)%nat) in *.
  destruct (loop_ok cam hitp li lo hi Hcam Hhit Hli Hlo x0 x1 y0 y1 xst yst jitter o c HX HY orig rn RN
     (Z.to_nat (x1 - x0) * Z.to_nat (y1 - y0)) 0 (duplicate orig n) w fuel) as (adds & T); [reflexivity|exact Hfu|apply repeat_length|auto|].
  fold s in T. change (xSamples s * ySamples s)%nat with n in T.
  destruct (loop_spec cam hitp li false x0 x1 y0 y1 xst yst jitter o c HX HY orig rn RN (Z.to_nat (x1 - x0) * Z.to_nat (y1 - y0)) 0
     (duplicate orig n) w fuel) as (out & T' & P); [reflexivity|exact Hfu|apply repeat_length|auto|].
  fold s in T'. change (xSamples s * ySamples s)%nat with n in T'. rewrite T in T'. injection T' as <-.
  destruct (P adds eq_refl) as (PL & _ & PG). fold s in PL, PG. fold n in PL, PG.
  pose proof (task_seen cam hitp li lo hi Hcam Hhit Hli Hlo n fuel _ _ _ _ _ _ T) as SE. cbn beta iota in SE.
  rewrite List.Forall_forall in SE.
  assert (FI : forall a, In a adds -> exists v, snd a = vmap Fin v).
  { intros a Ha. destruct (SE a Ha) as (v & E & _). eauto. }
  (* every pixel of the film gets positive weight *)
  assert (TW : forall x y, in_film f x y -> 0 < total_weight flt x y (map to_op adds)).
  { intros x y [IX IY]. set (j := (Z.to_nat (y - y0) * Z.to_nat (x1 - x0) + Z.to_nat (x - x0))%nat).
    assert (Hd : (Z.to_nat (x - x0) < Z.to_nat (x1 - x0))%nat) by lia.
    assert (Hj : (j < Z.to_nat (x1 - x0) * Z.to_nat (y1 - y0))%nat).
    { unfold j. assert (S (Z.to_nat (y - y0)) <= Z.to_nat (y1 - y0))%nat by lia. nia. }
    assert (Hn : (0 < n)%nat). { unfold n, s, stratified_make; cbn [xSamples ySamples]. nia. }
    pose proof (PG j 0%nat Hj Hn) as (GX & GY & _).
    set (a := nth (j * n + 0) adds (dsmp, black)) in *.
    assert (Ha : In a adds). { apply nth_In. rewrite PL. set (q := (Z.to_nat (x1 - x0) * Z.to_nat (y1 - y0))%nat) in *. clearbody n q j. nia. }
    assert (EX : pxk x0 x1 (0 + j) = x).
    { unfold pxk. cbn [Nat.add]. unfold j. rewrite Nat.add_comm, Nat.mod_add, Nat.mod_small by lia. lia. }
    assert (EY : pyk x0 x1 y0 (0 + j) = y).
    { unfold pyk. cbn [Nat.add]. unfold j. rewrite Nat.add_comm, Nat.div_add, Nat.div_small by lia. lia. }
    rewrite EX in GX. rewrite EY in GY.
    destruct (FI a Ha) as (v & Ev).
    assert (CV : covers flt (imageX (fst a)) (imageY (fst a)) x y).
    { split; apply Rabs_le; lra. }
    apply rsum_pos with (x := op_weight flt x y (to_op a)).
    - intros z Hz. apply in_map_iff in Hz. destruct Hz as (op & <- & Hop). destruct op; cbn [op_weight]; [|lra].
      destruct (coversb _ _ _ _ _); [apply NN|lra].
    - apply in_map. now apply in_map.
    - unfold to_op. rewrite Ev. destruct v as [v1 v2 v3]. cbn [vmap finite3 vx vy vz op_weight].
      replace (coversb _ _ _ _ _) with true by (symmetry; now apply coversb_spec).
      destruct CV as [C1 C2]. apply PP; apply cell_mid_range; auto; lra. }
  (* deposit *)
  assert (INF : in_film f (xstart f) (ystart f)) by (split; lia).
  assert (BD : forall x y sx sy L, In (Add sx sy L) (map to_op adds) -> covers flt sx sy x y -> vle lo L /\ vle L hi).
  { intros x y sx sy L HI _. apply in_map_iff in HI. destruct HI as (a & Ea & Ha). destruct (SE a Ha) as (v & Ev & A & B).
    unfold to_op in Ea. rewrite Ev in Ea. destruct v as [v1 v2 v3]. cbn [vmap finite3 vx vy vz] in Ea. injection Ea as _ _ <-. auto. }
  assert (SP : forall x y, splat_sum x y (map to_op adds) = vzero).
  { intros x y. unfold splat_sum. clear. induction adds as [|a l IH]; [reflexivity|]. cbn [map vsum]. rewrite IH.
    unfold to_op. destruct (finite3 (snd a)); cbn [op_splat]; unfold vadd, vzero, vmap2; cbn; f_equal; lra. }
  destruct (average_main xr yr flt c0 c1 c2 c3 (map to_op adds) sc (xstart f) (ystart f) lo hi ltac:(lra) ltac:(lra) NN INF (TW _ _ INF) (BD _ _))
    as (g & _ & RG & _).
  pose proof (deposit_run adds FI f g RG) as DR.
  exists (film_rgb g sc). split.
  { unfold render, task. change (maximum_sample_cnt s) with n. rewrite st_0 in T by assumption. fold s in T. fold n. rewrite T, DR. reflexivity. }
  intros x y IN.
  destruct (average_main xr yr flt c0 c1 c2 c3 (map to_op adds) sc x y lo hi ltac:(lra) ltac:(lra) NN IN (TW _ _ IN) (BD _ _))
    as (g' & avg & RG' & _ & A & B & C). rewrite RG in RG'. injection RG' as <-.
  exists avg. split; [exact A|]. split; [exact B|]. rewrite SP in C.
  fold f in C.
  replace (1e-6 * vabs1 avg + Rabs sc * (1e-6 * vabs1 vzero)) with (1e-6 * vabs1 avg) in C.
  2:{ unfold vabs1, vzero; cbn. rewrite Rabs_R0. lra. }
  replace (vadd (vmap (Rmax 0) avg) (vscale sc vzero)) with avg in C; [exact C|].
  destruct A as (A1 & A2 & A3), Hlo as (L1 & L2 & L3). cbn in L1, L2, L3. destruct avg as [p q r].
  unfold vadd, vmap, vmap2, vscale, vzero; cbn in *. rewrite !Rmax_right by lra. f_equal; lra.
Qed.
