From Coq Require Import Reals Lra Lia List Bool ZArith Psatz.
From Coquelicot Require Import Coquelicot.
From Verif Require Import Base M_Geometry S_Geometry P_Geometry M_Transform S_Transform P_Transform P_Transform2
  M_Volume S_Volume P_Volume1 P_Volume2 P_Volume3 P_Volume4.
Import ListNotations.
Open Scope R_scope.

Definition total (f : region -> R) (l : list region) : R := fold_right (fun g s => f g + s) 0 l.
Lemma ag_sum_channel c f l : channel c -> c (ag_sum f l) = total (fun g => c (f g)) l.
Proof.
  intros Hc. unfold ag_sum.
  assert (G : forall acc, c (fold_left (fun s r => vadd s (f r)) l acc) = c acc + total (fun g => c (f g)) l).
  { unfold total. induction l as [|g l IH]; intros acc; cbn; [ring|]. rewrite IH, channel_add by auto. ring. }
  rewrite G, channel_zero by auto. ring.
Qed.
Lemma total_plus f g l : total (fun x => f x + g x) l = total f l + total g l.
Proof. unfold total. induction l; cbn; [ring|]. rewrite IHl. ring. Qed.
Lemma total_ext f g l : (forall x, In x l -> f x = g x) -> total f l = total g l.
Proof. unfold total. induction l; cbn; intros; auto. rewrite H, IHl; auto. Qed.
Lemma channel_eq u v : (forall c, channel c -> c u = c v) -> u = v.
Proof. intros H. apply V3_eq; apply H; unfold channel; auto. Qed.

Lemma ag_sigma_split l p w time :
  (forall g, In g l -> rg_sigma_t g p w time = vadd (rg_sigma_a g p w time) (rg_sigma_s g p w time)) ->
  ag_sigma_t l p w time = vadd (ag_sigma_a l p w time) (ag_sigma_s l p w time).
Proof.
  intros H. apply channel_eq. intros c Hc. rewrite channel_add by auto.
  unfold ag_sigma_t, ag_sigma_a, ag_sigma_s. rewrite !ag_sum_channel by auto. rewrite <- total_plus.
  apply total_ext. intros g Hg. rewrite H by auto. now apply channel_add.
Qed.
Lemma ag_tau_sum l r step o v : (forall g, In g l -> rg_tau g r step o = Some (v g)) ->
  exists s, ag_tau l r step o = Some s /\ forall c, channel c -> c s = total (fun g => c (v g)) l.
Proof.
  intros H. unfold ag_tau.
  assert (G : forall acc, exists s, fold_left (fun s g => match s, rg_tau g r step o with
                        | Some s, Some v => Some (vadd s v) | _, _ => None end) l (Some acc) = Some s /\
              forall c, channel c -> c s = c acc + total (fun g => c (v g)) l).
  { unfold total. induction l as [|g l IH]; intros acc; cbn.
    - exists acc. split; auto. intros; ring.
    - rewrite (H g) by (left; auto). destruct IH with (acc := vadd acc (v g)) as (s & Hs & Cs). { intros; apply H; now right. }
      exists s. split; auto. intros c Hc. rewrite Cs, channel_add by auto. ring. }
  destruct (G vzero) as (s & Hs & Cs). exists s. split; auto. intros c Hc. rewrite Cs, channel_zero by auto. ring.
Qed.

(** the hull of the members' intervals *)
Definition hits_ok (l : list region) (r : ray) : Prop :=
  forall g a b, In g l -> rg_hit g r = Some (a, b) -> ele a b.
Lemma ag_fold_spec r l : forall x y, notnan x -> notnan y -> hits_ok l r ->
  let '(t0, t1) := fold_left (ag_step r) l (x, y) in
  notnan t0 /\ notnan t1 /\ ele t0 x /\ ele y t1 /\
  (forall g a b, In g l -> rg_hit g r = Some (a, b) -> ele t0 a /\ ele b t1) /\
  (forall u v, ele u x -> ele y v -> (forall g a b, In g l -> rg_hit g r = Some (a, b) -> ele u a /\ ele b v) -> ele u t0 /\ ele t1 v).
Proof.
  induction l as [|g l IH]; intros x y Nx Ny Ok; cbn [fold_left].
  - refine (conj Nx (conj Ny (conj (ele_refl _ Nx) (conj (ele_refl _ Ny) (conj _ _))))).
    + intros g a b [].
    + intros; split; auto.
  - assert (Ok' : hits_ok l r) by (intros g' a b Hg; apply Ok; now right).
    unfold ag_step at 2. destruct (rg_hit g r) as [[a b]|] eqn:Hg.
    + pose proof (Ok g a b (or_introl eq_refl) Hg) as Lab.
      pose proof (ele_notnan_l _ _ Lab) as Na. pose proof (ele_notnan_r _ _ Lab) as Nb.
      set (x' := if eltb a x then a else x). set (y' := if eltb y b then b else y).
      assert (Nx' : notnan x') by (unfold x'; destruct (eltb a x); auto).
      assert (Ny' : notnan y') by (unfold y'; destruct (eltb y b); auto).
      assert (X1 : ele x' x /\ ele x' a).
      { unfold x'. destruct (eltb a x) eqn:Q. split; [now apply elt_ele|now apply ele_refl].
        apply eltb_false_ele in Q; auto. split; [now apply ele_refl|auto]. }
      assert (Y1 : ele y y' /\ ele b y').
      { unfold y'. destruct (eltb y b) eqn:Q. split; [now apply elt_ele|now apply ele_refl].
        apply eltb_false_ele in Q; auto. split; [now apply ele_refl|auto]. }
      destruct X1 as [X1 X2], Y1 as [Y1 Y2].
      specialize (IH x' y' Nx' Ny' Ok'). destruct (fold_left (ag_step r) l (x', y')) as [t0 t1].
      destruct IH as (N0 & N1 & L0 & L1 & C & M).
      refine (conj N0 (conj N1 (conj (ele_trans _ _ _ L0 X1) (conj (ele_trans _ _ _ Y1 L1) (conj _ _))))).
      * intros g' a' b' [<- | H] H0.
        { rewrite Hg in H0. injection H0 as <- <-. split; [exact (ele_trans _ _ _ L0 X2)|exact (ele_trans _ _ _ Y2 L1)]. }
        exact (C g' a' b' H H0).
      * intros u v H H0 H1. destruct (H1 g a b (or_introl eq_refl) Hg) as [U1 V1]. apply M.
        -- unfold x'. destruct (eltb a x); auto.
        -- unfold y'. destruct (eltb y b); auto.
        -- intros g' a' b' Hg'. apply H1. now right.
    + specialize (IH x y Nx Ny Ok'). destruct (fold_left (ag_step r) l (x, y)) as [t0 t1].
      destruct IH as (N0 & N1 & L0 & L1 & C & M). refine (conj N0 (conj N1 (conj L0 (conj L1 (conj _ _))))).
      * intros g' a' b' [<- | H] H0; [congruence|]. exact (C g' a' b' H H0).
      * intros u v H H0 H1. apply M; auto. intros g' a' b' Hg'. apply H1. now right.
Qed.
Lemma ele_PInf x : notnan x -> ele x PInf. Proof. destruct x; unfold notnan, ele; cbn; congruence. Qed.
Lemma ele_NInf x : notnan x -> ele NInf x. Proof. destruct x; unfold notnan, ele; cbn; congruence. Qed.
Lemma elt_of_not a b : notnan a -> notnan b -> ~ ele b a -> eltb a b = true.
Proof. intros Na Nb H. destruct (eltb a b) eqn:Q; auto. exfalso. apply H. now apply eltb_false_ele. Qed.

Lemma ag_hit_hull l r : hits_ok l r ->
  let '(hit, t0, t1) := ag_hit l r in
  (forall g a b, In g l -> rg_hit g r = Some (a, b) -> ele t0 a /\ ele b t1) /\
  (forall u v, (exists g a b, In g l /\ rg_hit g r = Some (a, b)) ->
     (forall g a b, In g l -> rg_hit g r = Some (a, b) -> ele u a /\ ele b v) -> ele u t0 /\ ele t1 v) /\
  ((forall g, In g l -> rg_hit g r = None) -> hit = false) /\
  (forall g a b, In g l -> rg_hit g r = Some (a, b) -> elt a b -> hit = true) /\
  (hit = true -> exists g a b, In g l /\ rg_hit g r = Some (a, b)).
Proof.
  intros Ok. unfold ag_hit.
  pose proof (ag_fold_spec r l PInf NInf ltac:(discriminate) ltac:(discriminate) Ok) as K.
  assert (None_case : (forall g, In g l -> rg_hit g r = None) -> fold_left (ag_step r) l (PInf, NInf) = (PInf, NInf)).
  { clear K Ok. induction l as [|g l IH]; intros H; cbn; auto. unfold ag_step at 2. rewrite H by (now left). apply IH. intros; apply H; now right. }
  destruct (fold_left (ag_step r) l (PInf, NInf)) as [t0 t1] eqn:Ef. destruct K as (N0 & N1 & _ & _ & C & M).
  refine (conj C (conj _ (conj _ (conj _ _)))).
  - intros u v (g & a & b & Hg & Hh) H0. destruct (H0 _ _ _ Hg Hh). apply M; auto.
    + apply ele_PInf. eapply ele_notnan_l; eauto.
    + apply ele_NInf. eapply ele_notnan_r; eauto.
  - intros H. specialize (None_case H). injection None_case as -> ->. reflexivity.
  - intros g a b Hg Hh Lt0. destruct (C g a b Hg Hh) as [L0 L1]. apply elt_of_not; auto.
    intros Q. apply (elt_not_ele _ _ Lt0). eapply ele_trans; [exact L1|]. eapply ele_trans; eauto.
  - intros Ht. destruct (existsb (fun g => match rg_hit g r with Some _ => true | None => false end) l) eqn:Q.
    + apply existsb_exists in Q. destruct Q as (g & Hg & Q). destruct (rg_hit g r) as [[a b]|] eqn:Hh; [|discriminate]. eauto 6.
    + exfalso. assert (Hn : forall g, In g l -> rg_hit g r = None).
      { intros g Hg. destruct (rg_hit g r) eqn:Hh; auto. exfalso.
        assert (X : existsb (fun g => match rg_hit g r with Some _ => true | None => false end) l = true) by (apply existsb_exists; exists g; rewrite Hh; auto). congruence. }
      specialize (None_case Hn). injection None_case as -> ->. discriminate.
Qed.

Lemma ag_bound_accumulate l : ag_bound l = accumulate bbox_empty (map (fun g => GB (rg_bound g)) l).
Proof.
  unfold ag_bound, accumulate. generalize bbox_empty. induction l as [|g l IH]; intros b; cbn; auto.
Qed.
Lemma ag_bound_covers l g p : (forall h, In h l -> box_ok (rg_bound h)) -> In g l ->
  in_box (rg_bound g) p -> in_box (ag_bound l) p.
Proof.
  intros Ok Hg Hp. rewrite ag_bound_accumulate.
  assert (F : List.Forall geom_ok (map (fun g => GB (rg_bound g)) l)).
  { apply List.Forall_forall. intros x Hx. apply in_map_iff in Hx. destruct Hx as (h & <- & Hh). cbn. auto. }
  pose proof (accumulate_covers _ bbox_empty empty_ok F) as [C _].
  eapply box_le_in; [|exact Hp].
  assert (X : covers (accumulate bbox_empty (map (fun g => GB (rg_bound g)) l)) (GB (rg_bound g))).
  { eapply List.Forall_forall in C; [exact C|]. apply in_map_iff. eauto. }
  exact X.
Qed.

Lemma ag_lve_fails l p w time : l <> [] -> (forall g, In g l -> rg_le_call g p w time = Err TypeError) ->
  ag_lve l p w time = Err TypeError.
Proof.
  intros Ne H. destruct l as [|g l]; [congruence|]. unfold ag_lve. cbn [fold_left]. cbn [bind].
  rewrite H by (now left). cbn [bind]. clear. induction l; cbn; auto.
Qed.

Lemma sphere_integral_plus f g x y z a b : sphere_integral f x y z a -> sphere_integral g x y z b ->
  sphere_integral (fun d => f d + g d) x y z (a + b).
Proof.
  intros (i1 & A1 & B1) (i2 & A2 & B2). exists (fun th => i1 th + i2 th). split.
  - intros th. apply (is_RInt_plus (V := R_NormedModule)); auto.
  - apply (is_RInt_ext (fun th => sin th * i1 th + sin th * i2 th)).
    + intros t _. match goal with |- ?a = ?b => change (@eq R a b) end. ring.
    + apply (is_RInt_plus (V := R_NormedModule)); auto.
Qed.
Lemma sphere_integral_ext f g x y z a : (forall d, f d = g d) -> sphere_integral f x y z a -> sphere_integral g x y z a.
Proof.
  intros H (i & A & B). exists i. split; auto. intros th. eapply is_RInt_ext; [|apply A]. intros; apply H.
Qed.
Lemma zero_int (a b : R) : is_RInt (fun _ : R => 0) a b 0.
Proof.
  pose proof (is_RInt_const (V := R_NormedModule) a b 0) as K.
  assert (Q : scal (b - a) 0 = 0 :> R) by (unfold scal; cbn; unfold mult; cbn; ring). exact (eq_rect _ (fun v : R => is_RInt (fun _ : R => 0) a b v) K _ Q).
Qed.
Lemma sphere_integral_zero x y z : sphere_integral (fun _ => 0) x y z 0.
Proof.
  exists (fun _ => 0). split.
  - intros th. apply zero_int.
  - apply (is_RInt_ext (fun _ => 0)); [|apply zero_int]. intros; match goal with |- ?a = ?b => change (@eq R a b) end; ring.
Qed.
Lemma ag_phase_total l p x y z time c : frame x y z -> Rabs time < 1 -> channel c ->
  sphere_integral (fun wo => c (ag_phase (map homog_region l) p z wo time)) x y z
    (INR (length (filter (fun h => h_inside h p) l))).
Proof.
  intros Fr Ht Hc.
  apply (sphere_integral_ext (fun wo => total (fun g => rg_phase g p z wo time) (map homog_region l))).
  { intros d. unfold ag_phase. rewrite ag_sum_channel by auto. apply total_ext. intros g _. destruct Hc as [-> |[-> | ->]]; reflexivity. }
  induction l as [|h l IH].
  - cbn. apply sphere_integral_zero.
  - cbn [map filter]. unfold total in *. cbn [fold_right].
    assert (P1 : sphere_integral (fun wo => h_phase h p z wo time) x y z (if h_inside h p then 1 else 0)).
    { destruct (h_inside h p) eqn:Q.
      - apply (sphere_integral_ext (fun w => phase_hg z w time)); [|now apply hg_normalised].
        intros d. unfold h_phase. now rewrite Q.
      - apply (sphere_integral_ext (fun _ => 0)); [|apply sphere_integral_zero]. intros d. unfold h_phase. now rewrite Q. }
    destruct (h_inside h p) eqn:Q.
    + cbn [length]. rewrite S_INR, Rplus_comm. apply (sphere_integral_plus (fun wo => h_phase h p z wo time)); auto.
    + rewrite <- (Rplus_0_l (INR _)). apply (sphere_integral_plus (fun wo => h_phase h p z wo time)); auto.
Qed.
