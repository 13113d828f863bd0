(** Scenes with the same objects in another order, or without objects that nothing meets. *)
From Coq Require Import Reals Lra Lia List ZArith Bool.
From Verif Require Import Base M_MonteCarlo M_Aggregate M_Utility M_Spectrum M_Sampler M_Film.
From Verif Require Import M_Geometry S_Geometry P_Geometry M_Transform S_Transform P_Transform P_Transform2 M_Shapes S_Shapes P_ShapesMore M_BVH S_BVH
  M_Reflection S_Reflection M_Light M_Primitive S_Scene M_Material S_Material M_Integrator S_Integrator S_Integrator2 M_World S_World S_Order P_Motion.
Import ListNotations.
Local Open Scope R_scope.

Lemma parallel_units (m n n' : vec) (a a' : R) : m <> vzero -> unit n -> unit n' -> n = vscale a m -> n' = vscale a' m -> n' = n \/ n' = vneg n.
Proof.
  intros M U U' -> ->. unfold unit in *.
  set (q := vx m * vx m + vy m * vy m + vz m * vz m).
  assert (Q : 0 < q).
  { destruct (Rle_lt_dec q 0) as [H|H]; [|exact H]. exfalso. apply M. unfold q in H. destruct m as [x y z]; cbn in *.
    assert (x = 0) by nra. assert (y = 0) by nra. assert (z = 0) by nra. now subst. }
  assert (A : a * a * q = 1) by (unfold q; destruct m; unfold vscale, vmap, vdot, sq_length in U; cbn in *; nra).
  assert (A' : a' * a' * q = 1) by (unfold q; destruct m; unfold vscale, vmap, vdot, sq_length in U'; cbn in *; nra).
  assert (H : (a' - a) * (a' + a) = 0).
  { assert (H0 : (a' - a) * (a' + a) * q = 0) by lra. apply Rmult_integral in H0 as [H0|H0]; [exact H0|lra]. }
  apply Rmult_integral in H as [H|H]; [left|right].
  - replace a' with a by lra. reflexivity.
  - replace a' with (- a) by lra. unfold vneg, vscale, vmap. destruct m; apply V3_eq; cbn; ring.
Qed.
(** a vector perpendicular to two others is a multiple of their cross product *)
Lemma perp_multiple (u v n : vec) : vcross u v <> vzero -> vdot n u = 0 -> vdot n v = 0 -> exists a, n = vscale a (vcross u v).
Proof.
  intros M A B. set (m := vcross u v) in *. set (q := vx m * vx m + vy m * vy m + vz m * vz m).
  assert (Q : q <> 0).
  { intros H. apply M. unfold q in H. destruct m as [x y z]; cbn in *. assert (x = 0) by nra. assert (y = 0) by nra. assert (z = 0) by nra. now subst. }
  exists (vdot n m / q).
  assert (C : vcross n m = vzero).
  { unfold m. destruct u as [u1 u2 u3], v as [v1 v2 v3], n as [n1 n2 n3]. unfold vdot, vcross, vzero in *; cbn in *.
    apply V3_eq; cbn.
    - replace (n2 * (u1 * v2 - u2 * v1) - n3 * (u3 * v1 - u1 * v3)) with (u1 * (n1 * v1 + n2 * v2 + n3 * v3) - v1 * (n1 * u1 + n2 * u2 + n3 * u3)) by ring. rewrite A, B; ring.
    - replace (n3 * (u2 * v3 - u3 * v2) - n1 * (u1 * v2 - u2 * v1)) with (u2 * (n1 * v1 + n2 * v2 + n3 * v3) - v2 * (n1 * u1 + n2 * u2 + n3 * u3)) by ring. rewrite A, B; ring.
    - replace (n1 * (u3 * v1 - u1 * v3) - n2 * (u2 * v3 - u3 * v2)) with (u3 * (n1 * v1 + n2 * v2 + n3 * v3) - v3 * (n1 * u1 + n2 * u2 + n3 * u3)) by ring. rewrite A, B; ring. }
  clearbody m. destruct m as [x y z], n as [n1 n2 n3]. unfold vcross, vzero in C; cbn in C. injection C as C1 C2 C3.
  unfold q in *; clear q. cbn in Q. unfold vscale, vmap, vdot; cbn. 
  assert (K : forall c, (n1 * x + n2 * y + n3 * z) / (x * x + y * y + z * z) * c * (x * x + y * y + z * z) = (n1 * x + n2 * y + n3 * z) * c) by (intros; field; exact Q).
  apply V3_eq; cbn; apply (Rmult_eq_reg_r (x * x + y * y + z * z)); auto; rewrite K.
  - replace (n1 * (x * x + y * y + z * z)) with (n1 * x * x + (n1 * y - n2 * x) * y - (n3 * x - n1 * z) * z + n2 * x * y + n3 * x * z) by ring. rewrite C2, C3. ring.
  - replace (n2 * (x * x + y * y + z * z)) with (n2 * y * y - (n1 * y - n2 * x) * x + (n2 * z - n3 * y) * z + n1 * y * x + n3 * y * z) by ring. rewrite C1, C3. ring.
  - replace (n3 * (x * x + y * y + z * z)) with (n3 * z * z - (n2 * z - n3 * y) * y + (n3 * x - n1 * z) * x + n2 * z * y + n1 * z * x) by ring. rewrite C1, C2. ring.
Qed.
(** unit vectors perpendicular to the image of the plane perpendicular to q *)
Lemma image_normals (t : transform) (q n n' : vec) : (forall w, exists w', t_vector t w' = w) -> q <> vzero -> unit n -> unit n' ->
  (forall w, vdot w q = 0 -> vdot n (t_vector t w) = 0) -> (forall w, vdot w q = 0 -> vdot n' (t_vector t w) = 0) -> n' = n \/ n' = vneg n.
Proof.
  intros SURJ Q0 U U' H H'.
  set (qq := vx q * vx q + vy q * vy q + vz q * vz q).
  assert (QQ : qq <> 0).
  { intros Z0. apply Q0. unfold qq in Z0. destruct q as [x y z]; cbn in *. assert (x = 0) by nra. assert (y = 0) by nra. assert (z = 0) by nra. now subst. }
  assert (F : forall m, (forall w, vdot w q = 0 -> vdot m (t_vector t w) = 0) -> forall w, vdot m (t_vector t w) = vdot w q / qq * vdot m (t_vector t q)).
  { intros m Hm w. specialize (Hm (vsub w (vscale (vdot w q / qq) q))).
    assert (Z0 : vdot (vsub w (vscale (vdot w q / qq) q)) q = 0).
    { unfold qq in *. destruct w as [w1 w2 w3], q as [x y z]. unfold vdot, vsub, vscale, vmap, vmap2 in *; cbn in *. field. exact QQ. }
    specialize (Hm Z0). rewrite tv_sub, tv_scale in Hm. revert Hm. generalize (t_vector t w) (t_vector t q) (vdot w q / qq). intros a b c.
    unfold vdot, vsub, vscale, vmap, vmap2; cbn. lra. }
  pose proof (F n H) as Fn. pose proof (F n' H') as Fn'. set (a := vdot n (t_vector t q)) in *. set (a' := vdot n' (t_vector t q)) in *.
  assert (P : forall w, vdot (vsub (vscale a' n) (vscale a n')) w = 0).
  { intros w. destruct (SURJ w) as (w' & <-). specialize (Fn w'). specialize (Fn' w').
    replace (vdot (vsub (vscale a' n) (vscale a n')) (t_vector t w')) with (a' * vdot n (t_vector t w') - a * vdot n' (t_vector t w'))
      by (unfold vdot, vsub, vscale, vmap, vmap2; cbn; ring). rewrite Fn, Fn'. ring. }
  assert (E : vscale a' n = vscale a n').
  { pose proof (P (mkV 1 0 0)) as P1. pose proof (P (mkV 0 1 0)) as P2. pose proof (P (mkV 0 0 1)) as P3.
    unfold vdot, vsub, vscale, vmap, vmap2 in *; cbn in *. apply V3_eq; cbn; lra. }
  assert (NZ : forall m c, unit m -> (forall w, vdot m (t_vector t w) = vdot w q / qq * c) -> c <> 0).
  { intros m c Um Fm Z0. destruct (SURJ m) as (w & W). specialize (Fm w). rewrite W, Z0, Rmult_0_r in Fm. unfold unit in Um.
    destruct m; unfold vdot in *; cbn in *. lra. }
  pose proof (NZ n a U Fn) as A. pose proof (NZ n' a' U' Fn') as A'.
  apply (parallel_units n n n' 1 (a' / a)); auto.
  - intros ->. unfold unit in U. cbn in U. lra.
  - unfold vscale, vmap. destruct n; apply V3_eq; cbn; ring.
  - apply (f_equal (vscale (/ a))) in E. revert E. unfold vscale, vmap. destruct n, n'; cbn. intros E. injection E as E1 E2 E3.
    apply V3_eq; cbn; [replace (a' / a * vx) with (/ a * (a' * vx)) by (field; exact A); rewrite E1|replace (a' / a * vy) with (/ a * (a' * vy)) by (field; exact A); rewrite E2|
      replace (a' / a * vz) with (/ a * (a' * vz)) by (field; exact A); rewrite E3]; field; exact A.
Qed.
Lemma onto b : base_ok b -> forall w, exists w', t_vector (b_o2w b) w' = w.
Proof. intros (B & W) w. exists (t_vector (b_w2o b) w). rewrite W. apply built_valid in B. rewrite <- (inverse_involution (b_o2w b)) at 1. apply inv_vector. apply tvalid_inv. exact B. Qed.
(** a surface has one normal, up to sign, at a point where a ray meets it, unless two faces meet there *)
Lemma one_normal it r t n n' : geom_ok (it_geom it) -> touches (it_geom it) r t -> one_face r it t ->
  surface_normal (it_geom it) (ray_at r t) n -> surface_normal (it_geom it) (ray_at r t) n' -> n' = n \/ n' = vneg n.
Proof.
  intros G T O [U S0] [U' S1]. unfold one_face in O. revert G T O S0 S1. destruct (it_geom it) as [b vi P N T0 uv|b rad z0 z1 pm|b h rad ri pm]; intros G T O S0 S1.
  - destruct T as (f & Hf & NZ & IN). destruct S0 as (f0 & Hf0 & I0 & A & B). destruct S1 as (f1 & Hf1 & I1 & A' & B').
    assert (f0 = f) by (apply O; assumption). assert (f1 = f) by (apply O; assumption). subst f0 f1.
    set (u := vsub _ _) in A. set (v := vsub _ _) in B.
    assert (M : vcross u v <> vzero).
    { intros M. apply NZ. unfold tri_normal. fold u v. rewrite M. unfold vdot, vzero; cbn. ring. }
    destruct (perp_multiple u v n M A B) as (x & X). destruct (perp_multiple u v n' M A' B') as (y & Y).
    exact (parallel_units (vcross u v) n n' x y M U U' X Y).
  - destruct G as (B & _ & R0). destruct T as (_ & ON & _). clear O.
    apply (image_normals (b_o2w b) (t_point (b_w2o b) (ray_at r t))); auto; [apply (onto b B)|].
    intros Z0. rewrite Z0 in ON. cbn in ON. nra.
  - destruct G as (B & _).
    apply (image_normals (b_o2w b) (mkV 0 0 1)); auto; [apply (onto b B)|intros Z0; apply (f_equal vz) in Z0; cbn in Z0; lra| |].
    + intros [x y z] Z0. unfold vdot in Z0; cbn in Z0. replace z with 0 by lra. apply S0.
    + intros [x y z] Z0. unfold vdot in Z0; cbn in Z0. replace z with 0 by lra. apply S1.
Qed.
Lemma ele_elt a b : ele a b -> a <> b -> elt a b.
Proof. unfold ele, elt. destruct a, b; cbn; intros; auto; try congruence. apply Rleb_true in H. apply Rltb_true. assert (r <> r0) by congruence. lra. Qed.
Lemma diffuse_sign kd p n wo l bl x x' n' : n' = n \/ n' = vneg n -> diffuse_from kd p n wo l bl x -> diffuse_from kd p n' wo l bl x' -> x' = x.
Proof.
  intros NN D D'.
  assert (SS : same_side n' wo (dir p (lp_pos l)) <-> same_side n wo (dir p (lp_pos l))).
  { destruct NN as [-> | ->]; [reflexivity|]. unfold same_side, vneg, vdot, vmap; cbn. split; intros; lra. }
  assert (AB : Rabs (vdot (dir p (lp_pos l)) n') = Rabs (vdot (dir p (lp_pos l)) n)).
  { destruct NN as [-> | ->]; [reflexivity|]. rewrite <- Rabs_Ropp. f_equal. unfold vneg, vdot, vmap; cbn. ring. }
  unfold diffuse_from in *. rewrite AB in D'.
  destruct D as [(B1 & B2 & B3 & B4 & ->)|(B & ->)], D' as [(C1 & C2 & C3 & C4 & ->)|(C & ->)]; try reflexivity; exfalso; rewrite SS in *; intuition congruence.
Qed.
Lemma list_ext {A} : forall (l l' : list A), length l = length l' -> (forall j x y, nth_error l j = Some x -> nth_error l' j = Some y -> x = y) -> l = l'.
Proof.
  induction l as [|a l IH]; intros [|b l'] Q H; try discriminate Q; [reflexivity|]. f_equal; [now apply (H 0%nat)|].
  apply IH; [now injection Q|]. intros j x y X Y. now apply (H (S j)).
Qed.
Lemma shown_unique items items' colour lamps r L L' : Forall (fun it => geom_ok (it_geom it)) items ->
  unambiguous items lamps r -> same_met items items' lamps r -> shown items colour lamps r L -> shown items' colour lamps r L' -> L' = L.
Proof.
  intros GO (ONE & INS) (SM1 & SM2) H H'.
  assert (ENT : forall it t, In it items -> touches (it_geom it) r t -> ele (rmint r) (Fin t) -> ele (Fin t) (rmaxt r) -> elt (rmint r) (Fin t) /\ elt (Fin t) (rmaxt r)).
  { intros it t Hi T A B. destruct (ONE it t Hi T) as (N1 & N2 & _). split; apply ele_elt; congruence. }
  destruct H as [(-> & H)|(it & t & n & xs & Hi & HT & T1 & T2 & HM & FN & LX & -> & HX)],
    H' as [(-> & H')|(it' & t' & n' & xs' & Hi' & HT' & T1' & T2' & HM' & FN' & LX' & -> & HX')].
  - reflexivity.
  - exfalso. assert (J : In it' items) by (apply (SM1 it' t' HT'); exact Hi'). destruct (ENT it' t' J HT' T1' T2'). now apply (H it' t').
  - exfalso. assert (J : In it items') by (apply (SM1 it t HT); exact Hi). destruct (ENT it t Hi HT T1 T2). now apply (H' it t).
  - assert (J : In it' items) by (apply (SM1 it' t' HT'); exact Hi'). assert (J' : In it items') by (apply (SM1 it t HT); exact Hi).
    destruct (ENT it' t' J HT' T1' T2') as (e1 & _). destruct (ENT it t Hi HT T1 T2) as (e2 & _).
    assert (Et : t' = t) by (specialize (HM it' t' J HT' e1); specialize (HM' it t J' HT e2); lra). subst t'.
    destruct (ONE it t Hi HT) as (_ & _ & OI & OF). assert (EI : it' = it) by (apply OI; assumption). subst it'.
    assert (NN : n' = n \/ n' = vneg n).
    { apply (one_normal it r t); auto. rewrite Forall_forall in GO. now apply GO. }
    f_equal. apply list_ext; [congruence|]. intros j x' x X' X.
    assert (exists l, nth_error lamps j = Some l) as (l & Hl).
    { destruct (nth_error lamps j) eqn:Q; [eauto|]. apply nth_error_None in Q. assert (j < length xs)%nat by (apply nth_error_Some; congruence). lia. }
    destruct (HX j l x Hl X) as (bl & SA & D). destruct (HX' j l x' Hl X') as (bl' & SA' & D').
    assert (Il : In l lamps) by (eapply nth_error_In; eauto).
    assert (EB : bl' = bl).
    { destruct bl, bl'; try reflexivity; exfalso.
      - destruct SA as (i2 & s & I2 & S2 & A & B). apply (SA' i2 s); [apply (SM2 it t l i2 s); auto|exact S2| |].
        + apply ele_elt; [exact A|]. apply (INS it t l i2 s Hi HT Il I2 S2).
        + apply ele_elt; [exact B|]. apply (INS it t l i2 s Hi HT Il I2 S2).
      - destruct SA' as (i2 & s & I2 & S2 & A & B). assert (I3 : In i2 items) by (apply (SM2 it t l i2 s); auto).
        apply (SA i2 s); [exact I3|exact S2| |].
        + apply ele_elt; [exact A|]. apply (INS it t l i2 s Hi HT Il I3 S2).
        + apply ele_elt; [exact B|]. apply (INS it t l i2 s Hi HT Il I3 S2). }
    subst bl'. exact (diffuse_sign _ _ _ _ _ _ _ _ _ NN D D').
Qed.
