(** C128, continued: the bound of an aggregate of media contains every member (theorem added after mutation testing). *)
From Coq Require Import Reals Lra Lia List Bool ZArith.
From Coquelicot Require Import Coquelicot.
From Verif Require Import Base M_Geometry S_Geometry P_Geometry M_Transform S_Transform P_Transform P_Transform2
  M_Volume S_Volume P_Volume1 P_Volume2 P_Volume3 P_Volume4 P_Volume5.
Import ListNotations.
Open Scope R_scope.

(** the placements for which a medium's own bound is right (C124) *)
Definition placed (v2w : transform) (lo hi : vec) : Prop := built v2w /\ vle lo hi /\ nonneg_linear (tm v2w).
Lemma x_bound_covers x q : placed (x_v2w x) (x_lo x) (x_hi x) -> between (x_lo x) q (x_hi x) ->
  between (fst (x_bound x)) (t_point (x_v2w x) q) (snd (x_bound x)).
Proof.
  intros (B & L & N) Q. unfold x_bound. rewrite t_inverse_inverse.
  apply (bbox_image_in (x_v2w x) (x_lo x) (x_hi x)); auto. apply (built_valid _ B).
Qed.
(** [hs], [xs]: any homogeneous and exponential media; [fuel] only matters for the optical depth *)
Theorem C128_encloses (hs : list homog) (xs : list expo) (fuel : nat) :
  (forall h, In h hs -> placed (h_v2w h) (h_lo h) (h_hi h)) ->
  (forall x, In x xs -> placed (x_v2w x) (x_lo x) (x_hi x)) ->
  let b := ag_bound (map homog_region hs ++ map (expo_region fuel) xs) in
  (forall h q, In h hs -> between (h_lo h) q (h_hi h) -> in_box b (t_point (h_v2w h) q)) /\
  (forall x q, In x xs -> between (x_lo x) q (x_hi x) -> in_box b (t_point (x_v2w x) q)).
Proof.
  intros H X b. set (l := map homog_region hs ++ map (expo_region fuel) xs) in b.
  assert (OKH : forall h, In h hs -> forall q, between (h_lo h) q (h_hi h) -> between (fst (h_bound h)) (t_point (h_v2w h) q) (snd (h_bound h))).
  { intros h I q Q. destruct (H h I) as (B & L & N). apply h_bound_covers; auto. now exists q. }
  assert (OK : forall g, In g l -> box_ok (rg_bound g)).
  { intros g I. apply in_app_or in I. destruct I as [I|I]; apply in_map_iff in I; destruct I as (m & <- & I).
    - cbn. unfold box_ok, fbox, notnan; cbn. repeat split; discriminate.
    - cbn. unfold box_ok, fbox, notnan; cbn. repeat split; discriminate. }
  split.
  - intros h q I Q. apply (ag_bound_covers l (homog_region h)); [exact OK|apply in_or_app; left; now apply in_map|].
    cbn [homog_region rg_bound]. apply in_fbox. now apply OKH.
  - intros x q I Q. apply (ag_bound_covers l (expo_region fuel x)); [exact OK|apply in_or_app; right; now apply in_map|].
    unfold expo_region; cbn [rg_bound]. apply in_fbox. apply x_bound_covers; auto.
Qed.
Print Assumptions C128_encloses.
Example C128_encloses_ex : placed t_identity (mkV 0 0 0) (mkV 1 2 3) /\ between (mkV 0 0 0) (mkV 1 1 1) (mkV 1 2 3).
Proof.
  split; [split; [apply b_id|split]|].
  - unfold vle; cbn; repeat split; lra.
  - intros r [->|[->| ->]]; cbn; lra.
  - unfold between, vle; cbn. repeat split; lra.
Qed.
