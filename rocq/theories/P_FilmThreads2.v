(** Concurrent film updates: no update is lost. *)
From Coq Require Import Reals Lra Lia List ZArith Bool.
From Verif Require Import Base M_Film S_Film P_Film M_FilmThreads S_FilmThreads P_FilmThreads.
Import ListNotations.
Open Scope R_scope.

(** what an operation adds to a cell *)
Definition contrib (flt : filt) (x y : Z) (fd : field) (o : film_op) : R :=
  get_field (mkP (rgb2xyz (vscale (op_weight flt x y o) (op_rad o))) (rgb2xyz (op_splat x y o)) (op_weight flt x y o)) fd.

Lemma pend_inc a p fd d : pend a (inc p fd d) = if addr_eqb a (p, fd) then d else 0.
Proof. cbn. lra. Qed.
Definition lval (wt : R) (xyz : vec) (fd : field) : R :=
  match fd with LX => wt * vx xyz | LY => wt * vy xyz | LZ => wt * vz xyz | LW => wt | _ => 0 end.
Lemma pend_pixel f p wt xyz q fd : pend (q, fd) (pixel_code f p wt xyz) = if pt_eqb q p then lval wt xyz fd else 0.
Proof.
  unfold pixel_code. destruct (negb (sync f)); cbn [pend]; rewrite ?pend_app, !pend_inc; cbn [pend];
    unfold addr_eqb; cbn [fst snd]; destruct (pt_eqb q p); cbn [andb]; destruct fd; cbn; lra.
Qed.
Lemma pixels_code_ok f sx sy xyz : wf f -> 0 < f_xw (ffilt f) -> 0 < f_yw (ffilt f) -> forall cs, NoDup cs ->
  exists c, pixels_code f sx sy xyz cs = Ok c /\ forall x y fd,
    (In (x, y) cs -> pend ((x, y), fd) c = lval (tab_weight (ffilt f) sx sy x y) xyz fd) /\
    (~ In (x, y) cs -> pend ((x, y), fd) c = 0).
Proof.
  intros W HX HY. induction cs as [|[cx cy] cs IH]; intros ND.
  - exists []. split; auto. intros; cbn; tauto.
  - inversion ND as [|? ? NI ND']; subst. destruct (IH ND') as (c&E&P). cbn [pixels_code].
    rewrite weight_ok by auto. cbn [bind]. rewrite E. cbn [bind]. eexists. split; [reflexivity|].
    intros x y fd. rewrite pend_app, pend_pixel. destruct (P x y fd) as [P1 P2].
    destruct (pt_eqb_spec (x, y) (cx, cy)) as [EQ|NE].
    + injection EQ as -> ->. split; [intros _; rewrite P2 by auto; lra|]. intros H; exfalso; apply H; now left.
    + split; [intros [H|H]; [congruence|rewrite P1 by auto; lra]|]. intros H. rewrite P2; [lra|]. intros H'; apply H; now right.
Qed.
Lemma lval_field fd r v w : get_field (mkP (rgb2xyz (vscale w r)) v w) fd = get_field (mkP (vscale w (rgb2xyz r)) v w) fd.
Proof. now rewrite rgb2xyz_scale. Qed.
Lemma op_code_ok f o : wf f -> 0 < f_xw (ffilt f) -> 0 < f_yw (ffilt f) ->
  exists c, op_code f o = Ok c /\ forall x y fd, in_film f x y -> pend ((x, y), fd) c = contrib (ffilt f) x y fd o.
Proof.
  intros W HX HY. destruct o as [sx sy L|sx sy L]; cbn [op_code].
  - destruct (pixels_code_ok f sx sy (rgb2xyz L) W HX HY _ (coords_NoDup f sx sy)) as (c&E&P).
    exists c. split; auto. intros x y fd HI. destruct (P x y fd) as [P1 P2]. unfold contrib. rewrite lval_field.
    cbn [op_weight op_rad op_splat]. rewrite rgb2xyz_0. destruct (coversb (ffilt f) sx sy x y) eqn:C.
    + apply coversb_spec in C. rewrite P1 by (apply coords_In; auto). destruct fd; cbn; lra.
    + rewrite P2 by (rewrite coords_In, <- coversb_spec; intros [_ ?]; congruence). destruct fd; cbn; lra.
  - eexists. split; [reflexivity|]. intros x y fd [HIx HIy]. unfold contrib; cbn [op_weight op_rad op_splat].
    unfold splat_code. set (X := Zfloor sx). set (Y := Zfloor sy).
    destruct (Z.ltb_spec X (xstart f)); cbn [orb];
    [|destruct (Z.leb_spec (xcnt f) (X - xstart f)); cbn [orb];
    [|destruct (Z.ltb_spec Y (ystart f)); cbn [orb];
    [|destruct (Z.leb_spec (ycnt f) (Y - ystart f)); cbn [orb]]]].
    1-4: (cbn [pend]; destruct (Z.eqb_spec X x), (Z.eqb_spec Y y); try lia; cbn [andb]; rewrite vscale_0, rgb2xyz_0; destruct fd; reflexivity).
    cbn [pend]. rewrite !pend_app, !pend_inc. cbn [pend]. unfold addr_eqb; cbn [fst snd].
    unfold pt_eqb; cbn [fst snd]. rewrite (Z.eqb_sym x X), (Z.eqb_sym y Y), vscale_0, rgb2xyz_0.
    destruct (andb (X =? x)%Z (Y =? y)%Z); cbn [andb]; rewrite ?rgb2xyz_0; destruct fd; cbn; lra.
Qed.
Lemma work_code_ok f os : wf f -> 0 < f_xw (ffilt f) -> 0 < f_yw (ffilt f) ->
  exists c, work_code f os = Ok c /\ forall x y fd, in_film f x y ->
    pend ((x, y), fd) c = rsum (map (contrib (ffilt f) x y fd) os).
Proof.
  intros W HX HY. induction os as [|o os (c&E&P)]; [exists []; split; auto|].
  destruct (op_code_ok f o W HX HY) as (c1&E1&P1). cbn [work_code]. rewrite E1, E. cbn [bind].
  eexists; split; [reflexivity|]. intros x y fd HI. rewrite pend_app, P1, P by auto. reflexivity.
Qed.
Lemma spawn_ok f ws : wf f -> 0 < f_xw (ffilt f) -> 0 < f_yw (ffilt f) ->
  exists cs, spawn f ws = Ok cs /\ length cs = length ws /\
    (forall i w c, nth_error ws i = Some w -> nth_error cs i = Some c -> work_code f w = Ok c) /\
    forall x y fd, in_film f x y ->
      pend_all ((x, y), fd) (map (fun c => mkT c 0) cs) = rsum (map (contrib (ffilt f) x y fd) (concat ws)).
Proof.
  intros W HX HY. induction ws as [|w ws (cs&E&L&N&P)].
  - exists []. split; auto. split; auto. split; [|reflexivity]. intros [|i] w c H; discriminate.
  - destruct (work_code_ok f w W HX HY) as (c1&E1&P1). cbn [spawn]. rewrite E1, E. cbn [bind].
    eexists; split; [reflexivity|]. split; [cbn; auto|]. split.
    + intros [|i] w' c' H H'; cbn in *; [congruence|]. eauto.
    + intros x y fd HI. cbn [map concat]. unfold pend_all in *. cbn [map rsum code]. rewrite map_app, rsum_app, P, P1 by auto. reflexivity.
Qed.

Lemma vsum_ch (ch : vec -> R) : ch vzero = 0 -> (forall u v, ch (vadd u v) = ch u + ch v) -> forall l, ch (vsum l) = rsum (map ch l).
Proof. intros C0 CA. induction l; cbn; auto. now rewrite CA, IHl. Qed.
Lemma contrib_total flt x y fd os p :
  get_field (mkP (vadd (pL p) (rgb2xyz (weighted_sum flt x y os))) (vadd (pS p) (rgb2xyz (splat_sum x y os)))
                 (pW p + total_weight flt x y os)) fd
  = get_field p fd + rsum (map (contrib flt x y fd) os).
Proof.
  assert (LIN : forall ch : vec -> R, (ch = vx \/ ch = vy \/ ch = vz) -> forall (g : film_op -> vec),
     ch (rgb2xyz (vsum (map g os))) = rsum (map (fun o => ch (rgb2xyz (g o))) os)).
  { intros ch HC g. rewrite (vsum_ch (fun v => ch (rgb2xyz v))).
    - now rewrite map_map.
    - rewrite rgb2xyz_0. destruct HC as [-> |[-> | ->]]; reflexivity.
    - intros. rewrite rgb2xyz_add. destruct HC as [-> |[-> | ->]]; reflexivity. }
  unfold weighted_sum, splat_sum, total_weight, contrib.
  destruct fd; cbn [get_field pL pS pW vadd vmap2 vx vy vz]; unfold vadd, vmap2; cbn [vx vy vz];
    try (rewrite LIN by auto; reflexivity); reflexivity.
Qed.

Section Run.
  Variable locked : addr -> Prop.
  Variable own : addr -> nat -> Prop.
  Hypothesis own_fun : forall a i j, own a i -> own a j -> i = j.
  Hypothesis own_locked : forall a i, own a i -> locked a -> False.

  Lemma start_inv f cs : (forall i c, nth_error cs i = Some c -> wl locked own i None c) -> inv locked own (start f cs).
  Proof.
    intros H. unfold start. split; cbn [threads lock].
    - intros i t E. rewrite nth_error_map in E. destruct (nth_error cs i) as [c|] eqn:EC; [|discriminate].
      injection E as <-. exists None. split; [left; cbn; auto|]. intros; split; discriminate.
    - discriminate.
  Qed.

  Lemma no_lost_updates f ws cs n c : wf f -> 0 < f_xw (ffilt f) -> 0 < f_yw (ffilt f) ->
    spawn f ws = Ok cs -> (forall i k, nth_error cs i = Some k -> wl locked own i None k) ->
    exec (start f cs) n c ->
    (n + todo c = todo (start f cs))%nat /\
    (finished c -> exists g, run_ops f (concat ws) = Ok g /\
       forall x y fd, in_film f x y -> mem c ((x, y), fd) = film_mem g ((x, y), fd)) /\
    (~ finished c -> exists i c', step c i c').
  Proof.
    intros W HX HY SP WL EX. split; [now apply exec_todo|].
    destruct (inv_exec locked own own_fun own_locked _ _ _ (start_inv f cs WL) EX) as [I M]. split.
    - intros FIN. destruct (run_ops_ok (concat ws) f W HX HY) as (g&G&WG&SG&P). exists g. split; auto.
      intros x y fd HI. specialize (M ((x, y), fd)).
      destruct (spawn_ok f ws W HX HY) as (cs'&E&_&_&PD). rewrite SP in E. injection E as <-.
      unfold start in M; cbn [mem threads] in M. rewrite PD in M by auto.
      assert (Z : forall ts a, Forall (fun t => code t = []) ts -> pend_all a ts = 0).
      { unfold pend_all. induction 1 as [|t ts E F IH]; cbn; auto. rewrite E; cbn. lra. }
      rewrite Z in M by exact FIN. rewrite Rplus_0_r in M. rewrite M. unfold film_mem.
      destruct (P x y HI) as (A&B&C). destruct (pix g x y) as [l s w]; cbn in A, B, C. subst.
      symmetry. apply contrib_total.
    - now apply (progress locked own).
  Qed.

  Lemma wl_inc_fd i h p fd d k : excl locked own i h (p, fd) -> wl locked own i h k -> wl locked own i h (inc p fd d ++ k).
  Proof. intros. cbn. constructor; auto. Qed.
  Definition lfield (fd : field) : Prop := match fd with LX | LY | LZ | LW => True | _ => False end.
  Definition allowed (f : film) (i : nat) (p : Z * Z) : Prop :=
    if sync f then forall fd, lfield fd -> locked (p, fd) else forall fd, lfield fd -> own (p, fd) i.
  Lemma wl_pixel f i p wt xyz : allowed f i p -> wl locked own i None (pixel_code f p wt xyz).
  Proof.
    unfold allowed, pixel_code. destruct (sync f); cbn [negb]; intros A.
    - constructor. rewrite <- !app_assoc.
      repeat (apply wl_inc_fd; [left; split; [reflexivity|apply A; exact I]|]). constructor. constructor.
    - rewrite <- (app_nil_r (inc p LW wt)).
      repeat (apply wl_inc_fd; [right; apply A; exact I|]). constructor.
  Qed.
  Lemma wl_pixels f i sx sy xyz : wf f -> 0 < f_xw (ffilt f) -> 0 < f_yw (ffilt f) -> forall cs c,
    (forall p, In p cs -> allowed f i p) -> pixels_code f sx sy xyz cs = Ok c -> wl locked own i None c.
  Proof.
    intros W HX HY. induction cs as [|[x y] cs IH]; intros c A E; cbn [pixels_code] in E.
    - injection E as <-. constructor.
    - rewrite weight_ok in E by auto. cbn [bind] in E. destruct (pixels_code f sx sy xyz cs) as [r|]; [|discriminate].
      cbn [bind] in E. injection E as <-. apply wl_app; [apply wl_pixel; apply A; now left|]. apply IH; auto.
      intros; apply A; now right.
  Qed.
  Hypothesis splats_locked : forall p, locked (p, SX) /\ locked (p, SY) /\ locked (p, SZ).
  Lemma wl_splat f i sx sy L : wl locked own i None (splat_code f sx sy L).
  Proof.
    unfold splat_code. destruct (orb _ _); [constructor|]. destruct (splats_locked (Zfloor sx, Zfloor sy)) as (A&B&C).
    constructor. repeat (apply wl_inc_fd; [left; split; [reflexivity|assumption]|]). constructor. constructor.
  Qed.
  Lemma wl_work f i : wf f -> 0 < f_xw (ffilt f) -> 0 < f_yw (ffilt f) -> forall os c,
    (forall sx sy L x y, In (Add sx sy L) os -> In (x, y) (coords f sx sy) -> allowed f i (x, y)) ->
    work_code f os = Ok c -> wl locked own i None c.
  Proof.
    intros W HX HY. induction os as [|o os IH]; intros c A E; cbn [work_code] in E.
    - injection E as <-. constructor.
    - destruct (op_code f o) as [c1|] eqn:E1; [|discriminate]. cbn [bind] in E.
      destruct (work_code f os) as [c2|] eqn:E2; [|discriminate]. cbn [bind] in E. injection E as <-.
      apply wl_app.
      + destruct o as [sx sy L|sx sy L]; cbn [op_code] in E1.
        * eapply wl_pixels; eauto. intros [x y] H. apply (A sx sy L x y); auto. now left.
        * injection E1 as <-. apply wl_splat.
      + apply IH; auto. intros sx sy L x y Hin Hc. apply (A sx sy L x y); auto. now right.
  Qed.
End Run.

Lemma locked_good f ws : wf f -> 0 < f_xw (ffilt f) -> 0 < f_yw (ffilt f) ->
  /2 < f_xw (ffilt f) \/ /2 < f_yw (ffilt f) -> good_run f ws.
Proof.
  intros W HX HY WIDE. destruct (spawn_ok f ws W HX HY) as (cs&E&L&N&_). exists cs. split; auto. intros n c.
  assert (SY : sync f = true) by (unfold sync; apply orb_true_iff; rewrite !Rltb_true; auto).
  apply (no_lost_updates (fun _ => True) (fun _ _ => False)) with (ws := ws); auto; try tauto.
  intros i k Hk. destruct (nth_error ws i) as [w|] eqn:EW.
  - apply wl_work with (f := f) (os := w); auto; [|eapply N; eauto]. intros. unfold allowed. rewrite SY. auto.
  - apply nth_error_None in EW. apply nth_error_lt in Hk. lia.
Qed.
Lemma narrow_good f ws : wf f -> 0 < f_xw (ffilt f) -> 0 < f_yw (ffilt f) ->
  (forall i j w w' sx sy L sx' sy' L' x y, nth_error ws i = Some w -> nth_error ws j = Some w' ->
     In (Add sx sy L) w -> In (Add sx' sy' L') w' -> in_film f x y ->
     covers (ffilt f) sx sy x y -> covers (ffilt f) sx' sy' x y -> i = j) ->
  good_run f ws.
Proof.
  intros W HX HY DJ. destruct (sync f) eqn:SY.
  { apply locked_good; auto. unfold sync in SY. apply orb_true_iff in SY. now rewrite !Rltb_true in SY. }
  destruct (spawn_ok f ws W HX HY) as (cs&E&L&N&_). exists cs. split; auto. intros n c.
  apply (no_lost_updates (fun a => ~ lfield (snd a))
    (fun a i => lfield (snd a) /\ exists w sx sy L, nth_error ws i = Some w /\ In (Add sx sy L) w /\
       in_film f (fst (fst a)) (snd (fst a)) /\ covers (ffilt f) sx sy (fst (fst a)) (snd (fst a)))) with (ws := ws); auto.
  - intros [[x y] fd] i j (_&w&sx&sy&L1&A&B&C&D) (_&w'&sx'&sy'&L2&A'&B'&C'&D'). cbn in *.
    eapply (DJ i j w w' sx sy L1 sx' sy' L2 x y); eauto.
  - intros a i [A _] B. auto.
  - intros i k Hk. destruct (nth_error ws i) as [w|] eqn:EW.
    + apply wl_work with (f := f) (os := w); auto; [|eapply N; eauto].
      intros sx sy L1 x y HI HC. unfold allowed. rewrite SY. intros fd LF. split; auto.
      apply coords_In in HC. exists w, sx, sy, L1. cbn. tauto.
    + apply nth_error_None in EW. apply nth_error_lt in Hk. lia.
Qed.
(** a sample covers only its own pixel when the filter is narrower than a pixel, or as wide and the
    sample is off the pixel border *)
Lemma narrow_own flt sx sy x y : f_xw flt <= /2 -> f_yw flt <= /2 ->
  (f_xw flt < /2 \/ IZR (Zfloor sx) < sx) -> (f_yw flt < /2 \/ IZR (Zfloor sy) < sy) ->
  covers flt sx sy x y -> x = Zfloor sx /\ y = Zfloor sy.
Proof.
  assert (AX : forall (w s : R) (p : Z), w <= /2 -> (w < /2 \/ IZR (Zfloor s) < s) -> Rabs (IZR p + /2 - s) <= w -> p = Zfloor s).
  { intros w s p Hw H A. assert (- w <= IZR p + /2 - s <= w) by (unfold Rabs in A; destruct Rcase_abs; lra).
    symmetry. destruct (Zfloor_spec s) as [F1 F2].
    assert (IZR (Zfloor s) < IZR (p + 1)).
    { rewrite plus_IZR. destruct H; lra. }
    assert (IZR p < IZR (Zfloor s + 1)) by (rewrite plus_IZR; lra).
    apply lt_IZR in H1, H2. lia. }
  intros HX HY HX' HY' [A B]. split; [apply (AX (f_xw flt)); auto|apply (AX (f_yw flt)); auto].
Qed.
Lemma tiles_good f ws (tile_of : Z -> Z -> nat) : wf f -> 0 < f_xw (ffilt f) -> 0 < f_yw (ffilt f) ->
  f_xw (ffilt f) <= /2 -> f_yw (ffilt f) <= /2 ->
  (forall i w sx sy L, nth_error ws i = Some w -> In (Add sx sy L) w ->
     tile_of (Zfloor sx) (Zfloor sy) = i /\
     (f_xw (ffilt f) < /2 \/ IZR (Zfloor sx) < sx) /\ (f_yw (ffilt f) < /2 \/ IZR (Zfloor sy) < sy)) ->
  good_run f ws.
Proof.
  intros W HX HY NX NY T. apply narrow_good; auto.
  intros i j w w' sx sy L sx' sy' L' x y Ei Ej I1 I2 _ C1 C2.
  destruct (T i w sx sy L Ei I1) as (T1&X1&Y1), (T j w' sx' sy' L' Ej I2) as (T2&X2&Y2).
  apply narrow_own in C1, C2; auto. destruct C1 as [-> ->], C2 as [E1 E2]. rewrite <- E1, <- E2 in T2. congruence.
Qed.

(** *** a lost update *)
Definition step1 (c : conf) (i : nat) : option conf :=
  match nth_error (threads c) i with
  | Some (mkT (x :: k) r) =>
      match x with
      | Rd a => Some (mkC (mem c) (lock c) (replace_nth i (mkT k (mem c a)) (threads c)))
      | Wr a d => Some (mkC (upd_mem (mem c) a (r + d)) (lock c) (replace_nth i (mkT k r) (threads c)))
      | Acq p => match lock c p with None => Some (mkC (mem c) (upd_lock (lock c) p (Some i)) (replace_nth i (mkT k r) (threads c))) | _ => None end
      | Rel p => Some (mkC (mem c) (upd_lock (lock c) p None) (replace_nth i (mkT k r) (threads c)))
      end
  | _ => None
  end.
Lemma step1_ok c i c' : step1 c i = Some c' -> step c i c'.
Proof.
  destruct c as [m l ts]; unfold step1; cbn [threads mem lock].
  destruct (nth_error ts i) as [[[|[p|p|a|a d] k] r]|] eqn:E; try discriminate; intros H.
  - destruct (l p) eqn:LP; [discriminate|]. injection H as <-. eapply StAcq; eauto.
  - injection H as <-. eapply StRel; eauto.
  - injection H as <-. eapply StRd; eauto.
  - injection H as <-. eapply StWr; eauto.
Qed.
Fixpoint steps (c : conf) (s : list nat) : option conf :=
  match s with [] => Some c | i :: s => match step1 c i with Some c' => steps c' s | None => None end end.
Lemma exec_front c i c1 n c' : step c i c1 -> exec c1 n c' -> exec c (S n) c'.
Proof. intros S. induction 1; [econstructor; [constructor|eauto]|]. econstructor; eauto. Qed.
Lemma steps_ok s : forall c c', steps c s = Some c' -> exec c (length s) c'.
Proof.
  induction s as [|i s IH]; intros c c' E; cbn in E; [injection E as <-; constructor|].
  destruct (step1 c i) as [c1|] eqn:E1; [|discriminate]. cbn [length]. apply exec_front with (i := i) (c1 := c1); [now apply step1_ok|now apply IH].
Qed.

Definition wfilm : film := film_make 2 1 (box_filter (/2) (/2)) 0 1 0 1.
Lemma wfilm_shape : xstart wfilm = 0%Z /\ xcnt wfilm = 2%Z /\ ystart wfilm = 0%Z /\ ycnt wfilm = 1%Z.
Proof.
  unfold wfilm, film_make; cbn [xstart xcnt ystart ycnt]. rewrite !Rmult_0_r, !Rmult_1_r, !Zceil_IZR. auto.
Qed.
Lemma wfilm_coords sx : let c := coords wfilm sx (/2) in
  (sx = /2 -> c = [(0, 0)%Z]) /\ (sx = 1 -> c = [(0, 0)%Z; (1, 0)%Z]).
Proof.
  destruct wfilm_shape as (A&B&C&D). unfold coords, extent. rewrite A, B, C, D.
  change (ffilt wfilm) with (box_filter (/2) (/2)). cbn [f_xw f_yw box_filter].
  assert (Y0 : Zceil (/2 - /2 - /2) = 0%Z) by (apply Zceil_unique; lra).
  assert (Y1 : Zfloor (/2 - /2 + /2) = 0%Z) by (apply Zfloor_unique; lra).
  split; intros ->; rewrite Y0, Y1.
  - reflexivity.
  - assert (X0 : Zceil (1 - /2 - /2) = 0%Z) by (apply Zceil_unique; lra).
    assert (X1 : Zfloor (1 - /2 + /2) = 1%Z) by (apply Zfloor_unique; lra). rewrite X0, X1. reflexivity.
Qed.
Definition body (p : Z * Z) (a b c w : R) : list instr := inc p LX a ++ inc p LY b ++ inc p LZ c ++ inc p LW w.
Definition sched : list nat := ([0; 0; 0; 0; 0; 0; 0] ++ repeat 1 16 ++ [0])%nat.
Lemma lost_abs (m : addr -> R) (d : nat -> R) (w : R) :
  exists c, exec (mkC m (fun _ => None) [mkT (body (0, 0)%Z (d 0%nat) (d 1%nat) (d 2%nat) w) 0;
               mkT (body (0, 0)%Z (d 3%nat) (d 4%nat) (d 5%nat) w ++ body (1, 0)%Z (d 6%nat) (d 7%nat) (d 8%nat) w) 0]) (length sched) c /\
    finished c /\ mem c ((0, 0)%Z, LW) = m ((0, 0)%Z, LW) + w.
Proof.
  eexists. split; [apply steps_ok; vm_compute; reflexivity|]. split; [repeat constructor|]. vm_compute. reflexivity.
Qed.
Definition wworks (L L' : vec) : list (list film_op) := [[Add (/2) (/2) L]; [Add 1 (/2) L']].
Lemma lost_update L L' : exists cs n c g,
  spawn wfilm (wworks L L') = Ok cs /\ exec (start wfilm cs) n c /\ finished c /\
  run_ops wfilm (concat (wworks L L')) = Ok g /\
  mem c ((0, 0)%Z, LW) = 1 /\ film_mem g ((0, 0)%Z, LW) = 2.
Proof.
  pose proof (wf_make 2 1 (box_filter (/2) (/2)) 0 1 0 1) as W. fold wfilm in W.
  assert (HX : 0 < f_xw (ffilt wfilm)) by (cbn; lra). assert (HY : 0 < f_yw (ffilt wfilm)) by (cbn; lra).
  assert (SY : sync wfilm = false) by (apply orb_false_iff; split; apply Rltb_false; cbn; lra).
  assert (C0 : coords wfilm (/2) (/2) = [(0, 0)%Z]) by (exact (proj1 (wfilm_coords (/2)) eq_refl)).
  assert (C1 : coords wfilm 1 (/2) = [(0, 0)%Z; (1, 0)%Z]) by (exact (proj2 (wfilm_coords 1) eq_refl)).
  assert (SP : spawn wfilm (wworks L L') = Ok [pixel_code wfilm (0, 0)%Z 1 (rgb2xyz L) ++ [];
     (pixel_code wfilm (0, 0)%Z 1 (rgb2xyz L') ++ pixel_code wfilm (1, 0)%Z 1 (rgb2xyz L') ++ []) ++ []]).
  { unfold wworks. cbn [spawn work_code op_code]. unfold add_code. rewrite C0, C1. cbn [pixels_code].
    rewrite !weight_ok by auto. cbn [bind]. cbn [tab_weight f_eval ffilt wfilm film_make box_filter].
    unfold tab_weight. cbn [f_eval ffilt wfilm film_make box_filter]. rewrite !app_nil_r. reflexivity. }
  unfold pixel_code in SP. rewrite SY in SP. cbn [negb] in SP.
  destruct (run_ops_ok (concat (wworks L L')) wfilm W HX HY) as (g&G&WG&SG&P).
  destruct (lost_abs (film_mem wfilm) (fun k => match k with
      | 0%nat => 1 * vx (rgb2xyz L) | 1%nat => 1 * vy (rgb2xyz L) | 2%nat => 1 * vz (rgb2xyz L)
      | 3%nat | 6%nat => 1 * vx (rgb2xyz L') | 4%nat | 7%nat => 1 * vy (rgb2xyz L') | _ => 1 * vz (rgb2xyz L') end) 1) as (c&EX&FIN&MEM).
  eexists. exists (length sched), c, g. split; [exact SP|]. split.
  { rewrite !app_nil_r. exact EX. }
  split; [exact FIN|]. split; [exact G|].
  assert (PX : pix wfilm 0 0 = pixel0).
  { apply make_pix. destruct wfilm_shape as (A&B&C&D). fold wfilm. unfold in_film. rewrite A, B, C, D. lia. }
  split.
  - rewrite MEM. unfold film_mem. rewrite PX. cbn. lra.
  - unfold film_mem. destruct (P 0%Z 0%Z) as (_&_&PW).
    { destruct wfilm_shape as (A&B&C&D). unfold in_film. rewrite A, B, C, D. lia. }
    cbn [get_field]. rewrite PW, PX. unfold total_weight, wworks. cbn [concat app map op_weight rsum pixel0 pW].
    assert (CV : forall sx, sx = /2 \/ sx = 1 -> coversb (ffilt wfilm) sx (/2) 0 0 = true).
    { intros sx H. apply coversb_spec. unfold covers; cbn. split; apply Rabs_le; lra. }
    rewrite !CV by auto. unfold tab_weight; cbn. lra.
Qed.
