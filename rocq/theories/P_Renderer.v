(** Proofs about the rendering loop. *)
From Coq Require Import Reals Lra Lia List Bool ZArith Permutation.
From Verif Require Import Base M_Geometry M_Sampler M_Renderer S_Sampler P_Sampler.
Import ListNotations.
Open Scope R_scope.

Lemma enum_nth {A} (l : list A) d k : (k < length l)%nat -> nth k (enumerate l) (0%nat, d) = (k, nth k l d).
Proof. intros HL. unfold enumerate. rewrite combine_nth by (now rewrite seq_length). rewrite seq_nth by auto. reflexivity. Qed.
Lemma enum_length {A} (l : list A) : length (enumerate l) = length l.
Proof. unfold enumerate. rewrite combine_length, seq_length. lia. Qed.
Lemma gen_keeps s smp rn b smp' s' : generate s smp rn = Ok (b, smp', s') ->
  length smp' = length smp /\
  forall i, n1D (nth i smp' dsmp) = n1D (nth i smp dsmp) /\ n2D (nth i smp' dsmp) = n2D (nth i smp dsmp).
Proof.
  unfold generate. destruct (Reqb (yPos s) (ye s)); [intros H; injection H as <- <- <-; auto|].
  destruct (negb _); [discriminate|]. intros H.
  match type of H with (let '(_, _) := ?x in _) = _ => destruct x as [xp yp] end.
  injection H as <- <- <-. set (f := fun '(i, smp0) => fill_sample s rn _ _ _ i smp0).
  split; [now rewrite map_length, enum_length|]. intros i.
  destruct (le_lt_dec (length smp) i) as [L|L].
  - rewrite !nth_overflow; [auto|lia|rewrite map_length, enum_length; lia].
  - rewrite nth_indep with (d' := f (0%nat, dsmp)) by (now rewrite map_length, enum_length).
    rewrite (map_nth f), enum_nth by auto. split; reflexivity.
Qed.
Lemma rnd_ok_ext s smp smp' rn : length smp' = length smp ->
  (forall i, n1D (nth i smp' dsmp) = n1D (nth i smp dsmp) /\ n2D (nth i smp' dsmp) = n2D (nth i smp dsmp)) ->
  rnd_ok s smp rn -> rnd_ok s smp' rn.
Proof.
  intros L H (A & B & C & D & F). split; [exact A|]. split; [exact B|]. split; [exact C|]. split; [exact D|].
  intros i j Hi. rewrite L in Hi. specialize (F i j Hi). destruct (H i) as [H1 H2]. unfold dsmp in H1, H2.
  rewrite H1, H2. exact F.
Qed.
Lemma sample_good_old s px py old old' new : n1D old = n1D old' -> n2D old = n2D old' ->
  sample_good s px py old new -> sample_good s px py old' new.
Proof. unfold sample_good. intros -> ->. auto. Qed.

Definition sane (L : V3 E) : Prop := exists L0, L = sanitise L0.
Section Task.
Context {W : Type} (cam : sample -> W -> res (R * raydiff * W)) (hitp : raydiff -> W -> res (bool * W))
  (li : raydiff -> sample -> W -> res (V3 E * W)) (vis : bool).

Lemma shade_sane spp s w L w' : shade cam hitp li vis spp s w = Ok (L, w') -> sane L.
Proof.
  unfold shade, sane. destruct (cam s w) as [[[wt r0] w1]|?]; cbn [bind]; [|discriminate].
  destruct (hitp _ w1) as [[h w2]|?]; cbn [bind]; [|discriminate].
  destruct vis; [intros H; injection H as <- <-; eauto|].
  destruct (h && Rltb 0 wt); [|intros H; injection H as <- <-; eauto].
  destruct (li _ s w2) as [[l w3]|?]; cbn [bind]; [|discriminate]. intros H; injection H as <- <-; eauto.
Qed.
Lemma shade_all_spec spp : forall l w Ls w', shade_all cam hitp li vis spp l w = Ok (Ls, w') ->
  length Ls = length l /\ Forall sane Ls.
Proof.
  induction l as [|s l IH]; intros w Ls w' H; cbn [shade_all] in H; [injection H as <- <-; auto|].
  destruct (shade cam hitp li vis spp s w) as [[L w1]|?] eqn:Q; cbn [bind] in H; [|discriminate].
  destruct (shade_all cam hitp li vis spp l w1) as [[Ls' w2]|?] eqn:Q2; cbn [bind] in H; [|discriminate].
  injection H as <- <-. destruct (IH _ _ _ Q2) as [A B]. split; [cbn; congruence|]. constructor; [|exact B].
  eapply shade_sane; eauto.
Qed.

Section Window.
Variables (wx0 wx1 wy0 wy1 : Z) (xst yst : Z) (jitter : bool) (o c : R).
Hypotheses (HX : (wx0 < wx1)%Z) (HY : (wy0 < wy1)%Z).
Let s0 := stratified_make (IZR wx0) (IZR wx1) (IZR wy0) (IZR wy1) xst yst jitter o c.
Let Wd := Z.to_nat (wx1 - wx0).
Let Ht := Z.to_nat (wy1 - wy0).
Let n := (xSamples s0 * ySamples s0)%nat.
Variables (orig : sample) (rn : nat -> rnd).
Hypothesis RN : forall k, rnd_ok s0 (duplicate orig n) (rn k).

Lemma dup_nth i : (i < n)%nat -> nth i (duplicate orig n) dsmp = sample_dup orig.
Proof. intros H. unfold duplicate. rewrite nth_indep with (d' := sample_dup orig) by now rewrite repeat_length. apply nth_repeat. Qed.

Lemma loop_spec : forall m k samples w fuel, (k + m = Wd * Ht)%nat -> (m < fuel)%nat ->
  length samples = n ->
  (forall i, n1D (nth i samples dsmp) = n1D (nth i (duplicate orig n) dsmp) /\
             n2D (nth i samples dsmp) = n2D (nth i (duplicate orig n) dsmp)) ->
  exists out, task_loop cam hitp li vis n fuel (st wx0 wx1 wy0 wy1 xst yst jitter o c k) samples rn k w = Some out /\
  forall adds, out = Ok adds ->
    length adds = (m * n)%nat /\ Forall (fun a => sane (snd a)) adds /\
    forall j i, (j < m)%nat -> (i < n)%nat ->
      sample_good s0 (pxk wx0 wx1 (k + j)) (pyk wx0 wx1 wy0 (k + j)) (sample_dup orig)
        (fst (nth (j * n + i) adds (dsmp, black))).
Proof.
  induction m as [|m IH]; intros k samples w fuel HK HF HL HN; (destruct fuel as [|fuel]; [lia|]); cbn [task_loop].
  - replace k with (Wd * Ht)%nat by lia. unfold Wd, Ht.
    rewrite (st_end wx0 wx1 wy0 wy1 xst yst jitter o c HX HY). eexists. split; [reflexivity|].
    intros adds Q. injection Q as <-. split; [reflexivity|]. split; [constructor|]. intros; lia.
  - assert (RO : rnd_ok s0 samples (rn k)).
    { eapply rnd_ok_ext; [| |apply RN]; [unfold duplicate; rewrite repeat_length; exact HL|exact HN]. }
    destruct (st_step wx0 wx1 wy0 wy1 xst yst jitter o c HX HY k samples (rn k)) as (smp' & G & CG);
      [fold Wd Ht; lia|exact HL|exact RO|].
    rewrite G. destruct (gen_keeps _ _ _ _ _ _ G) as [KL KN].
    destruct (shade_all cam hitp li vis n smp' w) as [[Ls w']|x] eqn:SA.
    2: { eexists. split; [reflexivity|]. intros; discriminate. }
    destruct (shade_all_spec _ _ _ _ _ SA) as [SL SF].
    destruct (IH (S k) smp' w' fuel) as (out & T & P); [lia|lia|congruence| |].
    { intros i. destruct (KN i) as [-> ->]. apply HN. }
    rewrite T. destruct out as [rest|x].
    2: { eexists. split; [reflexivity|]. intros; discriminate. }
    specialize (P rest eq_refl) as (P1 & P2 & P3). eexists. split; [reflexivity|].
    intros adds Q. injection Q as <-.
    assert (CL : length (combine smp' Ls) = n) by (rewrite combine_length; lia).
    split; [rewrite app_length, CL, P1; lia|]. split.
    + apply Forall_app. split; [|exact P2]. apply Forall_forall. intros [a b] HI. cbn.
      rewrite Forall_forall in SF. apply SF. eapply in_combine_r; eauto.
    + intros [|j] i Hj Hi.
      * rewrite Nat.add_0_r. cbn [Nat.mul Nat.add]. rewrite app_nth1 by lia. rewrite combine_nth by lia. cbn [fst].
        destruct CG as (_ & CG & _). rewrite HL in CG. specialize (CG i Hi).
        eapply sample_good_old; [| |exact CG].
        -- destruct (HN i) as [-> _]. now rewrite dup_nth.
        -- destruct (HN i) as [_ ->]. now rewrite dup_nth.
      * replace (S j * n + i)%nat with (length (combine smp' Ls) + (j * n + i))%nat by lia.
        rewrite app_nth2_plus. replace (k + S j)%nat with (S k + j)%nat by lia. apply P3; lia.
Qed.
End Window.
End Task.

(** sanitising *)
Lemma sanitise_idem_black : sanitise black = black.
Proof.
  unfold sanitise. destruct (has_nans black); [reflexivity|]. destruct (eltb _ _); [reflexivity|]. destruct (eeqb _ _); reflexivity.
Qed.
Lemma sanitise_cases L : sanitise L = black \/ (sanitise L = L /\ has_nans L = false /\ eltb (ey L) (Fin (- EPS)) = false /\ ey L <> PInf).
Proof.
  unfold sanitise. destruct (has_nans L) eqn:A; [auto|]. destruct (eltb (ey L) (Fin (- EPS))) eqn:B; [auto|].
  destruct (eeqb (ey L) PInf) eqn:C; [auto|]. right. repeat split. intros Q. rewrite Q in C. discriminate.
Qed.
Lemma esgn_pos x p : 0 < x -> esgn_inf x p = if p then PInf else NInf.
Proof.
  intros. unfold esgn_inf. destruct (Reqb x 0) eqn:C; Rb; [lra|]. destruct (Rltb 0 x) eqn:D; Rb; [|lra]. destruct p; reflexivity.
Qed.
Lemma y_finite L : has_nans L = false -> ~ opposite_infinities L -> ey L <> PInf -> eltb (ey L) (Fin (- EPS)) = false ->
  exists a b c, L = mkV (Fin a) (Fin b) (Fin c) /\ - EPS <= 0.212671 * a + 0.715160 * b + 0.072169 * c.
Proof.
  destruct L as [x y z]. unfold has_nans, opposite_infinities, ey; cbn [vx vy vz].
  intros N O P Q. destruct x as [a| | |]; destruct y as [b| | |]; destruct z as [d| | |]; try discriminate N; cbn [emul] in *;
    rewrite ?esgn_pos in * by lra; cbn in P, Q;
    try (exfalso; apply P; reflexivity); try discriminate Q;
    try (exfalso; apply O; split; auto; fail).
  exists a, b, d. split; [reflexivity|]. Rb. lra.
Qed.
