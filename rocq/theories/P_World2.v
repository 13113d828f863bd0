(** Proofs about darkness, proportionality and superposition (C271 - C275). *)
From Coq Require Import Reals Lra Lia List ZArith Bool.
From Verif Require Import Base M_MonteCarlo M_Aggregate M_Utility M_Spectrum M_Sampler M_Film.
From Verif Require Import M_Python M_Geometry M_Transform M_Shapes M_BVH M_Reflection M_Light M_Primitive M_Material M_Integrator
  S_Integrator S_Integrator2 P_Integrator3 M_World S_World.
Import ListNotations.
Open Scope R_scope.

Lemma v_scale0 c : vscale c vzero = vzero. Proof. unfold vscale, vmap, vzero. apply V3_eq; cbn; ring. Qed.
Lemma smul_0_r f : smul f vzero = vzero. Proof. unfold smul, vmap2, vzero. apply V3_eq; cbn; ring. Qed.
Lemma sdiv_0 c : sdiv vzero c = vzero. Proof. unfold sdiv, vmap, vzero. apply V3_eq; cbn; unfold Rdiv; ring. Qed.
Lemma vadd_00 : vadd vzero vzero = vzero. Proof. unfold vadd, vmap2, vzero. apply V3_eq; cbn; ring. Qed.
Lemma spec0 : spec 0 = vzero. Proof. reflexivity. Qed.

Section Dark.
Context {V : Type} (e : env V) (u : nat -> R).
Hypothesis HU : unlit e.

Lemma dark_sum_le r : sum_le e r (spec 1) (spec 0) = vzero.
Proof. unfold sum_le. destruct HU as (-> & _). reflexivity. Qed.
Lemma dark_path_le r beta : sum_le e r beta vzero = vzero.
Proof. unfold sum_le. destruct HU as (-> & _). reflexivity. Qed.

Section Rec.
Variables (md : Z) (time : R) (local : V -> raydiff -> vec -> vec -> vec -> bsdf -> nat -> res (vec * nat)).
Hypothesis HL : forall v r p n wo b k L k', local v r p n wo b k = Ok (L, k') -> L = vzero.

Definition dark_rec (rec : raydiff -> V -> nat -> option (res (rout (V := V)))) : Prop :=
  forall r i k L T i' k' c, rec r i k = Some (Ok (L, T, i', k', c)) -> L = vzero /\ T = vzero.
Lemma dark_specular rec tr r b p n i k L i' k' c : dark_rec rec ->
  specular e u rec tr r b p n i k = Some (Ok (L, i', k', c)) -> L = vzero.
Proof.
  intros HR. unfold specular. destruct (smp_from_rand u k) as [[[u0 u1] uc] k1].
  destruct (bsdf_sample _ _ _ _ _ _) as [s|]; [|discriminate].
  destruct (Rltb 0 (sm_pdf s) && negb (is_black (sm_f s))); [|intros [= <- _ _ _]; reflexivity].
  destruct (sm_wi s) as [wi|]; [|discriminate]. destruct (Reqb (abs_dot wi n) 0); [intros [= <- _ _ _]; reflexivity|].
  match goal with |- obind (rec ?a ?b ?c) _ = _ -> _ => destruct (rec a b c) as [[[[[[Li T] i1] k2] c']|]|] eqn:ER end; cbn [obind]; try discriminate.
  apply HR in ER as (-> & ->). intros [= <- _ _ _]. destruct tr; rewrite smul_0_r, v_scale0, sdiv_0; reflexivity.
Qed.
Lemma dark_li fuel : dark_rec (renderer_li e u md time local fuel).
Proof.
  induction fuel as [|fuel IH]; intros r i k L T i' k' c; cbn [renderer_li]; [discriminate|].
  destruct (negb _); [discriminate|]. destruct (hit e r) as [r1 h] eqn:EH. destruct HU as (NL & NV & ND). rewrite NV.
  destruct h as [v|].
  - unfold surf_li. destruct (v_bsdf e v r1) as [[p b]|]; cbn [obind]; [|discriminate].
    destruct (local v r1 p _ _ b k) as [[Ld k1]|] eqn:EL; cbn [obind]; [|discriminate].
    apply HL in EL. subst Ld. rewrite (ND _ _ _ _ EH), vadd_00.
    destruct (_ <? md)%Z; [|cbn [obind]; intros [= <- <- _ _ _]; auto].
    destruct (specular e u _ false _ _ _ _ _ _) as [[[[[Lr v1] k2] c1]|]|] eqn:E1; cbn [obind]; try discriminate.
    apply dark_specular in E1; [|exact IH]. subst Lr.
    destruct (specular e u _ true _ _ _ _ _ _) as [[[[[Lt v2] k3] c2]|]|] eqn:E2; cbn [obind]; try discriminate.
    apply dark_specular in E2; [|exact IH]. subst Lt. rewrite !vadd_00. intros [= <- <- _ _ _]; auto.
  - cbn [obind]. rewrite dark_sum_le. intros [= <- <- _ _ _]; auto.
Qed.
End Rec.

Lemma dark_whitted v r p n wo b k L k' : whitted_local e u v r p n wo b k = Ok (L, k') -> L = vzero.
Proof. unfold whitted_local. destruct HU as (-> & _). cbn [whitted_lights]. intros [= <- _]. reflexivity. Qed.
Lemma dark_direct s lo bo v r p n wo b k L k' : direct_all_local e u s lo bo v r p n wo b k = Ok (L, k') -> L = vzero.
Proof. unfold direct_all_local. destruct HU as (-> & _). cbn [length]. intros [= <- _]. reflexivity. Qed.

Section DarkPath.
Variables (md : Z) (s : sample) (po : list path_offs).
Lemma dark_path_direct bounce v r p n wo b k L k' : path_direct e u s po bounce v r p n wo b k = Ok (L, k') -> L = vzero.
Proof.
  unfold path_direct, uniform_sample_one_light. destruct HU as (-> & _). cbn [length Nat.eqb].
  destruct (bounce <? SAMPLE_DEPTH)%nat; [destruct (idx po bounce); cbn [bind]; [|discriminate]|]; intros [= <- _]; reflexivity.
Qed.
Lemma dark_step st : (forall w, v_le e (p_v st) w = vzero) -> p_L st = vzero ->
  match path_step e u md (path_direct e u s po) (path_smp_of s po) st with
  | inl (Ok (L, _, _)) => L = vzero
  | inl (Err _) => True
  | inr st' => (forall w, v_le e (p_v st') w = vzero) /\ p_L st' = vzero
  end.
Proof.
  intros HV H0. unfold path_step. rewrite HV, H0, smul_0_r.
  replace (if (p_bounce st =? 0)%nat || p_spb st then vadd vzero vzero else vzero) with vzero by (destruct (_ || _); [now rewrite vadd_00|reflexivity]).
  destruct (v_bsdf e (p_v st) (p_r st)) as [[p b]|]; [|exact Logic.I].
  destruct (path_direct _ _ _ _ _ _ _ _ _ _ _ _) as [[Ld k1]|] eqn:ED; [|exact Logic.I]. apply dark_path_direct in ED. subst Ld.
  rewrite smul_0_r, vadd_00.
  destruct (if (p_bounce st <? SAMPLE_DEPTH)%nat then _ else _) as [[[[u0 u1] uc] k2]|]; [|exact Logic.I].
  destruct (bsdf_sample _ _ _ _ _ _) as [sm|]; [|exact Logic.I]. destruct (_ || _); [reflexivity|].
  destruct (sm_wi sm) as [wi|]; [|exact Logic.I].
  destruct (if (SAMPLE_DEPTH <? p_bounce st)%nat then _ else _) as [[stop beta2] k3].
  destruct (stop || _); [reflexivity|].
  destruct (hit e _) as [r2 [v'|]] eqn:EH; [|apply dark_path_le].
  match goal with |- context [let '(_, _) := ?x in _] => destruct x as [beta3 k4] end. cbn [p_v p_L].
  split; [|reflexivity]. intros w. destruct HU as (_ & _ & ND). exact (ND _ _ _ w EH).
Qed.
Lemma dark_path fuel r v k L k' c : (forall w, v_le e v w = vzero) -> path_li e u md s po fuel r v k = Some (Ok (L, k', c)) -> L = vzero.
Proof.
  intros HV. unfold path_li, path_run.
  assert (G : forall fuel st, (forall w, v_le e (p_v st) w = vzero) -> p_L st = vzero ->
     path_loop e u md (path_direct e u s po) (path_smp_of s po) fuel st = Some (Ok (L, k', c)) -> L = vzero).
  { clear fuel. induction fuel as [|fuel IH]; intros st A B; cbn [path_loop]; [discriminate|].
    pose proof (dark_step st A B) as D. destruct (path_step _ _ _ _ _ st) as [[[[L1 k1] c1]|]|st']; [|discriminate|].
    - intros [= <- _ _]. exact D.
    - destruct D. now apply IH. }
  apply G; [exact HV|reflexivity].
Qed.
End DarkPath.
End Dark.

(** ** Stronger lights *)
Lemma vs_add c a b : vscale c (vadd a b) = vadd (vscale c a) (vscale c b).
Proof. unfold vscale, vadd, vmap, vmap2. apply V3_eq; cbn; ring. Qed.
Lemma vs_smul c f a : smul f (vscale c a) = vscale c (smul f a).
Proof. unfold vscale, smul, vmap, vmap2. apply V3_eq; cbn; ring. Qed.
Lemma vs_smul_l c f a : smul (vscale c f) a = vscale c (smul f a).
Proof. unfold vscale, smul, vmap, vmap2. apply V3_eq; cbn; ring. Qed.
Lemma vs_vs c d a : vscale d (vscale c a) = vscale c (vscale d a).
Proof. unfold vscale, vmap. apply V3_eq; cbn; ring. Qed.
Lemma vs_sdiv c d a : sdiv (vscale c a) d = vscale c (sdiv a d).
Proof. unfold vscale, sdiv, vmap. apply V3_eq; cbn; unfold Rdiv; ring. Qed.
Lemma bright_black s : spec_is_black s = false <-> bright s.
Proof.
  unfold spec_is_black, bright, EPS. destruct (Rltb (vx s) _) eqn:A, (Rltb (vy s) _) eqn:B, (Rltb (vz s) _) eqn:C; cbn;
    Rb; split; try discriminate; try (intros [?|[?|?]]; lra); intros _; first [left; lra|right; left; lra|right; right; lra].
Qed.

Section Strong.
Context {V : Type} (c : R) (e : env V) (u : nat -> R).
Hypothesis NV : vol e = None.
Hypothesis HB : forall p, shows e p -> forall l eps a t Li wi pdf vis, In l (lights e) -> lt_sample l p eps a t = Ok (Li, wi, pdf, vis) ->
  (bright (vscale c Li) <-> bright Li).
Notation e' := (stronger c e).

Definition up {A} (o : res (vec * A)) : res (vec * A) := match o with Ok (L, k) => Ok (vscale c L, k) | Err x => Err x end.
Lemma strong_lights p n wo eps time b : shows e p -> forall ls, incl ls (lights e) -> forall L k,
  whitted_lights e' u (map (stronger_light c) ls) p n wo eps time b (vscale c L) k = up (whitted_lights e u ls p n wo eps time b L k).
Proof.
  intros SP. induction ls as [|l ls IH]; intros IN L k; cbn [map whitted_lights]; [reflexivity|].
  unfold smp_from_rand. cbn [stronger_light lt_sample].
  destruct (lt_sample l p eps _ time) as [[[[Li wi] pdf] vis]|] eqn:ES; cbn [bind]; [|reflexivity].
  assert (SB : spec_is_black (vscale c Li) = spec_is_black Li).
  { pose proof (HB p SP l _ _ _ _ _ _ _ (IN l (or_introl eq_refl)) ES) as Q. rewrite <- !bright_black in Q.
    destruct (spec_is_black (vscale c Li)), (spec_is_black Li); try reflexivity; destruct Q as [Q1 Q2]; [now apply Q2|symmetry; now apply Q1]. }
  assert (IN' : incl ls (lights e)) by (intros x Hx; apply IN; now right).
  rewrite SB. destruct (_ || _); [now apply IH|].
  destruct (bsdf_f b wo wi ALL) as [f|]; cbn [bind]; [|reflexivity]. cbn [stronger hit_p].
  destruct (_ && _); [|now apply IH]. unfold transmittance; cbn [stronger vol]. rewrite NV.
  rewrite <- (IH IN'). f_equal. rewrite vs_smul, vs_vs, vs_smul_l, vs_sdiv, vs_add. reflexivity.
Qed.
Lemma strong_local v r p n wo b k : shows e p -> whitted_local e' u v r p n wo b k = up (whitted_local e u v r p n wo b k).
Proof.
  intros SP. unfold whitted_local. cbn [stronger lights v_eps]. change (spec 0) with vzero. rewrite <- (v_scale0 c) at 1.
  apply strong_lights; [exact SP|]. intros x Hx; exact Hx.
Qed.
Lemma strong_le r L : sum_le e' r (spec 1) (vscale c L) = vscale c (sum_le e r (spec 1) L).
Proof.
  unfold sum_le. cbn [stronger lights]. clear HB. revert L. induction (lights e) as [|l ls IH]; intros L; cbn [map fold_left]; [reflexivity|].
  rewrite <- IH. cbn [stronger_light lt_le]. rewrite vs_smul, vs_add. reflexivity.
Qed.

Variables (md : Z) (time : R).
Notation li := (renderer_li e u md time (whitted_local e u)).
Notation li' := (renderer_li e' u md time (whitted_local e' u)).
Definition up3 (o : option (res (rout (V := V)))) : option (res (rout (V := V))) :=
  match o with Some (Ok (L, T, i, k, n)) => Some (Ok (vscale c L, T, i, k, n)) | x => x end.
Definition up4 (o : option (res (vec * V * nat * nat))) : option (res (vec * V * nat * nat)) :=
  match o with Some (Ok (L, i, k, n)) => Some (Ok (vscale c L, i, k, n)) | x => x end.
Lemma li_T fuel r i k L T i' k' n : li fuel r i k = Some (Ok (L, T, i', k', n)) -> T = vzero.
Proof.
  destruct fuel as [|fuel]; cbn [renderer_li]; [discriminate|]. destruct (negb _); [discriminate|]. destruct (hit e r) as [r1 h].
  rewrite NV. match goal with |- obind ?x _ = _ -> _ => destruct x as [[[[[L1 i1] k1] n1]|]|] end; cbn [obind]; try discriminate.
  intros [= _ <- _ _ _]. reflexivity.
Qed.
Lemma strong_specular fuel tr r b p n i k : (forall r i k, li' fuel r i k = up3 (li fuel r i k)) ->
  specular e' u (li' fuel) tr r b p n i k = up4 (specular e u (li fuel) tr r b p n i k).
Proof.
  intros IH. unfold specular. unfold smp_from_rand. destruct (bsdf_sample _ _ _ _ _ _) as [s|]; [|reflexivity].
  destruct (_ && _); [|cbn [up4]; rewrite v_scale0; reflexivity].
  destruct (sm_wi s) as [wi|]; [|reflexivity]. destruct (Reqb _ 0); [cbn [up4]; rewrite v_scale0; reflexivity|].
  cbn [stronger v_eps diffs]. rewrite IH.
  match goal with |- obind (up3 (renderer_li _ _ _ _ _ _ ?a ?b ?k)) _ = _ => destruct (li fuel a b k) as [[[[[[L1 T1] i1] k1] n1]|]|] eqn:EL end; cbn [obind up3]; try reflexivity.
  apply li_T in EL. subst T1. cbn [up4]. f_equal. f_equal. f_equal. f_equal. f_equal.
  destruct tr; [rewrite smul_0_r, v_scale0, sdiv_0, v_scale0; reflexivity|].
  now rewrite vs_smul, vs_vs, vs_sdiv.
Qed.
Lemma strong_li fuel : forall r i k, li' fuel r i k = up3 (li fuel r i k).
Proof.
  induction fuel as [|fuel IH]; intros r i k; [reflexivity|]. cbn [renderer_li].
  destruct (negb _); [reflexivity|]. change (hit e' r) with (hit e r). destruct (hit e r) as [r1 h] eqn:EH.
  change (vol e') with (vol e). rewrite NV. destruct h as [v|].
  2:{ cbn [obind up3]. rewrite <- strong_le, v_scale0. reflexivity. }
  unfold surf_li. change (v_bsdf e' v r1) with (v_bsdf e v r1). destruct (v_bsdf e v r1) as [[p b]|] eqn:EB; [|reflexivity].
  assert (SP : shows e p) by (exists r, r1, v, b; split; assumption).
  change (b_dgs_nn e' v r1) with (b_dgs_nn e v r1). rewrite strong_local by exact SP.
  destruct (whitted_local e u v r1 p _ _ b k) as [[Ld k1]|]; [|reflexivity]. cbn [up].
  change (v_le e' v (vneg (rdir r1))) with (vscale c (v_le e v (vneg (rdir r1)))). rewrite <- vs_add.
  destruct (_ <? md)%Z; [|reflexivity].
  rewrite (strong_specular fuel false) by exact IH.
  destruct (specular e u _ false _ _ _ _ _ _) as [[[[[Lr v1] k2] c1]|]|]; cbn [up4 obind]; try reflexivity.
  rewrite (strong_specular fuel true) by exact IH.
  destruct (specular e u _ true _ _ _ _ _ _) as [[[[[Lt v2] k3] c2]|]|]; cbn [up4 obind up3]; try reflexivity.
  rewrite !vs_add. reflexivity.
Qed.
End Strong.

(** ** Every recorded primitive is one of the scene's *)
Section Recorded.
Variable Q : gprim -> Prop.
Definition rec_ok (i : isect) : Prop := forall p, is_prim i = Some p -> Q p.
Lemma leaf_rec (ps : nat -> res gprim) (HP : forall k p, ps k = Ok p -> Q p) l : forall st st', sc_leaf ps l st = Ok st' -> rec_ok (snd st) -> rec_ok (snd st').
Proof.
  induction l as [|k l IH]; intros [[h r] i] st'; cbn [sc_leaf]; [now intros [= <-]|].
  destruct (ps k) as [p|] eqn:EP; cbn [bind]; [|discriminate]. unfold gp_intersect.
  destruct (shape_intersect _ r) as [[hh|]|]; cbn [bind]; [| |discriminate]; intros H HI; apply (IH _ _ H); cbn [snd].
  - intros q [= <-]. now apply (HP k).
  - exact HI.
Qed.
Lemma traverse_rec (ps : nat -> res gprim) (HP : forall k p, ps k = Ok p -> Q p) nodes fuel : forall idx todo st st',
  sc_traverse fuel ps nodes idx todo st = Ok (Some st') -> rec_ok (snd st) -> rec_ok (snd st').
Proof.
  induction fuel as [|fuel IH]; intros idx todo [[h r] i] st'; cbn [sc_traverse]; [discriminate|].
  destruct (nth_error nodes idx) as [node|]; [|discriminate].
  destruct (box_test _ r).
  - destruct (0 <? l_nprim node)%nat.
    + destruct (sc_leaf _ _ _) as [st1|] eqn:EL; cbn [bind]; [|discriminate]. intros H HI. pose proof (leaf_rec ps HP _ _ _ EL HI) as H1.
      destruct todo as [|j todo]; [now injection H as <-|now apply (IH _ _ _ _ H)].
    + destruct (64 <=? length todo)%nat; [discriminate|]. destruct (Rltb _ 0); intros H HI; now apply (IH _ _ _ _ H).
  - destruct todo as [|j todo]; [intros [= <-] HI; exact HI|]. intros H HI; now apply (IH _ _ _ _ H).
Qed.
Lemma made_rec mp prims sc fuel r b r' i' : (forall p, In p prims -> Q p) ->
  (forall b, Q (mkGP (SSph (sphere_make b 1 0 0 0)) 0 0 0 None)) ->
  scene_make mp prims = Ok sc -> scene_intersect fuel sc r isect_new = Ok (Some (b, r', i')) -> rec_ok i'.
Proof.
  intros HP HD. unfold scene_make. destruct (prim_bounds prims) as [bounds|]; cbn [bind]; [|discriminate].
  destruct (bvh_make SAH mp bounds) as [[[nodes ordered]|]|]; cbn [bind]; try discriminate; intros [= <-].
  - cbn [scene_intersect]. intros H. apply (traverse_rec _ ) in H; [exact H| |intros p [=]].
    intros k p. unfold prim_at. destruct (nth_error _ k) as [q|] eqn:EN; [|discriminate]. intros [= <-].
    apply nth_error_In in EN. apply in_map_iff in EN as (j & <- & _).
    destruct (nth_in_or_default j prims (mkGP (SSph (sphere_make (mkBase t_identity t_identity false) 1 0 0 0)) 0 0 0 None)) as [HI| -> ]; auto.
  - cbn [scene_intersect]. intros [= _ _ <-] p [=].
Qed.
End Recorded.
Lemma refined_light items : forall ns np p, In p (full_refine_items items ns np) -> exists it, In it items /\ gp_light p = it_light it.
Proof.
  induction items as [|it items IH]; intros ns np p; [intros []|]. cbn [full_refine_items].
  destruct (full_refine_item it ns np) as [[ps ns'] np'] eqn:EF. intros H. apply in_app_or in H as [H|H].
  - exists it. split; [now left|]. unfold full_refine_item in EF. destruct (it_geom it); injection EF as <- _ _.
    + apply in_rev, in_map_iff in H as (k & <- & _). reflexivity.
    + destruct H as [<-|[]]. reflexivity.
    + destruct H as [<-|[]]. reflexivity.
  - destruct (IH _ _ _ H) as (it' & A & B). exists it'. split; [now right|exact B].
Qed.
Lemma world_unlit mp items ns np sc mats fuel diffs : (forall it, In it items -> it_light it = None) ->
  scene_make mp (full_refine_items items ns np) = Ok sc -> unlit (env_of (mkW sc mats [] fuel diffs)).
Proof.
  intros HN HS. split; [reflexivity|]. split; [reflexivity|]. intros r r' i wo. cbn [env_of hit v_le w_scene w_fuel].
  unfold world_hit. cbn [w_fuel w_scene].
  destruct (scene_intersect fuel sc (rd_ray r) isect_new) as [[[[[|] q] j]|]|] eqn:EI; try (intros [=]; fail).
  intros [= _ <-]. unfold world_le, isect_le. destruct (is_prim j) as [p|] eqn:EP; [|reflexivity].
  assert (HG : gp_light p = None).
  { apply (made_rec (fun p => gp_light p = None) mp (full_refine_items items ns np) sc fuel (rd_ray r) true q j); [|reflexivity|exact HS|exact EI|exact EP].
    intros p' HI. destruct (refined_light _ _ _ _ HI) as (it & A & ->). now apply HN. }
  rewrite HG. reflexivity.
Qed.

(** ** Direct lighting against Whitted's method, for delta lights *)
Lemma nn_black s : nn s -> (nonblack s <-> bright s).
Proof. intros (a & b & c). unfold nonblack, bright. rewrite !Rabs_pos_eq by assumption. reflexivity. Qed.
Lemma delta_whitted {V} (e : env V) p n wo eps time b l a a' x x' :
  lt_sample l p eps a time = lt_sample l p eps a' time ->
  (forall Li wi pdf vis, lt_sample l p eps a time = Ok (Li, wi, pdf, vis) -> nn Li /\ 0 <= pdf /\
     bsdf_f b wo wi NOSPEC = bsdf_f b wo wi ALL /\ forall f, bsdf_f b wo wi ALL = Ok f -> nn f) ->
  whitted_contrib e p n wo eps time b l a x -> delta_contrib e p n wo eps time b l a' x' -> x' = x.
Proof.
  intros ES H (Li & wi & pdf & vis & E1 & W) (Li' & wi' & pdf' & vis' & E2 & D). rewrite <- ES, E1 in E2. injection E2 as <- <- <- <-.
  destruct (H _ _ _ _ E1) as (NL & NP & EF & NF). rewrite (nn_black Li NL), EF in D.
  destruct W as [(B & P & f & Ef & W)|(B & ->)], D as [(B' & P' & f' & Ef' & D)|(B' & ->)].
  - rewrite Ef in Ef'. injection Ef' as <-. rewrite (nn_black f (NF f Ef)) in D.
    destruct W as [(b1 & h1 & ->)|(b1 & ->)], D as [(b2 & h2 & ->)|(b2 & ->)]; try reflexivity.
    + exfalso. destruct b2 as [b2|b2]; [auto|congruence].
    + exfalso. destruct b1 as [b1|b1]; [auto|congruence].
  - exfalso. destruct B' as [B'|B']; [auto|]. lra.
  - exfalso. destruct B as [B|B]; [auto|]. lra.
  - reflexivity.
Qed.
Lemma mean_const xs x : xs <> [] -> (forall y, In y xs -> y = x) -> mean xs = x.
Proof.
  intros NE H. assert (VS : vsum xs = vscale (INR (length xs)) x).
  { clear NE. induction xs as [|y xs IH].
    - unfold vsum, vscale, vmap, spec; cbn. apply V3_eq; cbn; ring.
    - change (vsum (y :: xs)) with (vadd y (vsum xs)). rewrite IH by (intros; apply H; now right). rewrite (H y (or_introl eq_refl)).
      cbn [length]. rewrite S_INR. unfold vadd, vscale, vmap, vmap2. apply V3_eq; cbn; ring. }
  unfold mean. rewrite VS. assert (INR (length xs) <> 0) by (apply not_0_INR; destruct xs; [congruence|discriminate]).
  unfold vscale, vmap. apply V3_eq; cbn; field; assumption.
Qed.
Lemma land_nospec t x : Z.land t SPECULAR = 0%Z -> Z.land t (Z.land (Z.land ALL (Z.lnot SPECULAR)) x) = Z.land t (Z.land ALL x).
Proof.
  intros H. apply Z.bits_inj'. intros n Hn. rewrite !Z.land_spec, Z.lnot_spec by exact Hn.
  apply (f_equal (fun z => Z.testbit z n)) in H. rewrite Z.land_spec, Z.bits_0 in H.
  destruct (Z.testbit t n), (Z.testbit SPECULAR n), (Z.testbit ALL n), (Z.testbit x n); try reflexivity; discriminate H.
Qed.
Lemma nospec_f b wo wi : (forall d, In d (bs_bdfs b) -> Z.land (bdf_type d) SPECULAR = 0%Z) -> bsdf_f b wo wi NOSPEC = bsdf_f b wo wi ALL.
Proof.
  intros H. unfold bsdf_f.
  assert (G : forall l y, (forall d, In d l -> Z.land (bdf_type d) SPECULAR = 0%Z) -> forall acc,
    sum_f l (Z.land NOSPEC y) (w2l b wo) (w2l b wi) acc = sum_f l (Z.land ALL y) (w2l b wo) (w2l b wi) acc).
  { induction l as [|d l IH]; intros y HD acc; cbn [sum_f]; [reflexivity|].
    unfold match_flag. unfold NOSPEC. rewrite land_nospec by (apply HD; now left).
    assert (HD' : forall d, In d l -> Z.land (bdf_type d) SPECULAR = 0%Z) by (intros; apply HD; now right).
    fold NOSPEC. destruct (_ =? _)%Z; [|now apply IH]. destruct (bdf_f d _ _); cbn [bind]; [now apply IH|reflexivity]. }
  unfold side_flags. destruct (Rltb _ _); now apply G.
Qed.
Lemma nth_error_ext {A} (l l' : list A) : (forall i, nth_error l i = nth_error l' i) -> l = l'.
Proof.
  revert l'. induction l as [|x l IH]; intros [|y l'] H; [reflexivity| | |]; try (specialize (H 0%nat); discriminate H).
  pose proof (H 0%nat) as H0. injection H0 as ->. f_equal. apply IH. intros i. exact (H (S i)).
Qed.
