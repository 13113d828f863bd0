(** Property theorem C291: a picture depends on the objects that are met, not on how they are listed.  Vocabulary: S_Order.v, S_World.v. *)
From Coq Require Import Reals Lra Lia List ZArith Bool Permutation.
From Verif Require Import Base M_MonteCarlo M_Aggregate M_Utility M_Spectrum M_Sampler M_Film.
From Verif Require Import M_Geometry S_Geometry P_Geometry M_Transform S_Transform P_Transform P_Transform2 M_Shapes S_Shapes P_ShapesMore M_BVH S_BVH
  M_Reflection S_Reflection M_Light M_Primitive S_Scene P_Scene2 M_Material S_Material M_Integrator S_Integrator S_Integrator2 M_World S_World S_Order P_Order Props_World.
Import ListNotations.
Local Open Scope R_scope.

(** Two scenes of diffuse objects which agree on the objects that a ray and the sight lines from the points it meets meet: the same radiance, in
    whatever order the objects are listed, however many are put in a leaf of the tree, and whatever the other objects are. *)
Theorem C291_what_is_met (mp mp' : nat) (items items' : list item) (ns np ns' np' : Z) (colour : nat -> vec) (mats mats' : nat -> material)
    diffs diffs' (lamps : list lamp) (r r' : raydiff) (u u' : nat -> R) (md md' : Z) (k k' : nat) :
  rd_ray r' = rd_ray r -> viewable mp items ns np lamps (rd_ray r) -> viewable mp' items' ns' np' lamps (rd_ray r) ->
  diffuse_mats mats colour -> diffuse_mats mats' colour ->
  unambiguous items lamps (rd_ray r) -> same_met items items' lamps (rd_ray r) ->
  exists sc sc', scene_make mp (full_refine_items items ns np) = Ok sc /\ scene_make mp' (full_refine_items items' ns' np') = Ok sc' /\
    forall fuel fuel' depth depth', (scene_size sc <= fuel)%nat -> (scene_size sc' <= fuel')%nat -> (0 < depth)%nat -> (0 < depth')%nat ->
    exists L T i k1 c T' i' k1' c',
      whitted (mkW sc mats (map lamp_light lamps) fuel diffs) u md (rtime (rd_ray r)) depth r k = Some (Ok (L, T, i, k1, c)) /\
      whitted (mkW sc' mats' (map lamp_light lamps) fuel' diffs') u' md' (rtime (rd_ray r)) depth' r' k' = Some (Ok (L, T', i', k1', c')).
Proof.
  intros ER (A & B & C & D & E & F & G) (A' & B' & C' & D' & E' & F' & G') M M' U SM. rewrite <- ER in E', F', G'.
  destruct (C270_lit mp items ns np colour mats diffs lamps r u md k A B C D M E F G) as (sc & S1 & H).
  destruct (C270_lit mp' items' ns' np' colour mats' diffs' lamps r' u' md' k' A' B' C' D' M' E' F' G') as (sc' & S2 & H').
  exists sc, sc'. split; [exact S1|]. split; [exact S2|]. intros fuel fuel' depth depth' F1 F2 D1 D2.
  destruct (H fuel depth F1 D1) as (L & T & i & k1 & c & W & SH). destruct (H' fuel' depth' F2 D2) as (L' & T' & i' & k1' & c' & W' & SH').
  rewrite ER in SH', W'. rewrite (shown_unique items items' colour lamps (rd_ray r) L L' B U SM SH SH') in W'.
  exists L, T, i, k1, c, T', i', k1', c'. split; assumption.
Qed.
Print Assumptions C291_what_is_met.

(** in particular: any order, and any repetition, of the same objects *)
Theorem C291_any_order (mp mp' : nat) (items items' : list item) (ns np ns' np' : Z) (colour : nat -> vec) (mats : nat -> material)
    diffs (lamps : list lamp) (r : raydiff) (u : nat -> R) (md : Z) (k : nat) :
  (forall it, In it items <-> In it items') -> viewable mp items ns np lamps (rd_ray r) -> viewable mp' items' ns' np' lamps (rd_ray r) ->
  diffuse_mats mats colour -> unambiguous items lamps (rd_ray r) ->
  exists sc sc', scene_make mp (full_refine_items items ns np) = Ok sc /\ scene_make mp' (full_refine_items items' ns' np') = Ok sc' /\
    forall fuel fuel' depth depth', (scene_size sc <= fuel)%nat -> (scene_size sc' <= fuel')%nat -> (0 < depth)%nat -> (0 < depth')%nat ->
    exists L T i k1 c T' i' k1' c',
      whitted (mkW sc mats (map lamp_light lamps) fuel diffs) u md (rtime (rd_ray r)) depth r k = Some (Ok (L, T, i, k1, c)) /\
      whitted (mkW sc' mats (map lamp_light lamps) fuel' diffs) u md (rtime (rd_ray r)) depth' r k = Some (Ok (L, T', i', k1', c')).
Proof.
  intros P V V' M U. apply (C291_what_is_met mp mp' items items' ns np ns' np' colour mats mats diffs diffs lamps r r u u md md k k eq_refl V V' M M U).
  split; intros; apply P.
Qed.
Print Assumptions C291_any_order.

(** the triangle of C270 alone, and listed after a second one which neither the ray nor the sight line meets *)
Definition far_item : item := mkItem (GMesh (id_base false) [0; 1; 2]%Z [mkV 10 0 0; mkV 13 0 0; mkV 10 3 0] None None None) 5 5 0 None.
Definition both_items : list item := far_item :: w_items.
Lemma far_touch r t : touches (it_geom far_item) r t -> vz (ray_at r t) = 0 /\ 10 <= vx (ray_at r t).
Proof.
  intros (f & Hf & _ & HI). cbn [length] in Hf. assert (f = 0)%nat by lia. subst f. revert HI.
  unfold S_Shapes.corner. cbn [id_base b_o2w]. rewrite !t_point_I.
  replace (Z.to_nat (nth (3 * 0 + 0) [0; 1; 2]%Z 0%Z)) with 0%nat by reflexivity.
  replace (Z.to_nat (nth (3 * 0 + 1) [0; 1; 2]%Z 0%Z)) with 1%nat by reflexivity.
  replace (Z.to_nat (nth (3 * 0 + 2) [0; 1; 2]%Z 0%Z)) with 2%nat by reflexivity. cbn [nth].
  intros (x & y & z & X & Y & Z0 & Q & ->). unfold vadd, vscale, vmap2, vmap; cbn. split; [ring|]. nra.
Qed.
Lemma far_unmet t : touches (it_geom far_item) ex_ray t -> False.
Proof.
  intros H. destruct (far_touch _ _ H) as (A & B). unfold ray_at, ex_ray, vadd, vscale, vmap2, vmap in A, B; cbn in A, B. lra.
Qed.
Lemma both_touch it t : In it both_items -> touches (it_geom it) ex_ray t -> In it w_items /\ t = 5.
Proof.
  intros [<-|[<-|[]]] H; [destruct (far_unmet t H)|]. split; [now left|]. now apply (w_touch5 ex_ray).
Qed.
Lemma sight_z e tm s : let q := sight (mkV 1 (1/2) 0) (lp_pos w_lamp) e tm in vz (ray_at q s) = 2 / 3 * s /\ vx (ray_at q s) = 1 + 2 / 3 * s.
Proof.
  cbn zeta. unfold sight, ray_at. cbn [ro rd w_lamp w_lamp_of lp_pos]. rewrite w_dir. unfold vadd, vscale, vmap2, vmap; cbn. lra.
Qed.
Example C291_ex : viewable 4 w_items 3 3 [w_lamp] ex_ray /\ viewable 2 both_items 3 3 [w_lamp] ex_ray /\
  diffuse_mats (fun k => Matte (fun _ => w_colour k) (fun _ => 0) None) w_colour /\
  unambiguous w_items [w_lamp] ex_ray /\ same_met w_items both_items [w_lamp] ex_ray /\
  unambiguous both_items [w_lamp] ex_ray /\ (forall it, In it both_items <-> In it (rev both_items)) /\ w_items <> both_items.
Proof.
  destruct w_ok as (A & B & C & D & F & G0). split; [|split].
  - split; [lia|]. do 2 (split; [assumption|]). split; [now left|]. do 2 (split; [assumption|]). exact (w_sight 1).
  - split; [lia|]. split.
    { constructor; [|exact A]. cbn [far_item it_geom geom_ok]. split; [reflexivity|]. split; [unfold faces_ok; repeat (constructor; [cbn; lia|]); constructor|intros l [=]]. }
    split; [intros it [<-|H]; [split; [reflexivity|now left]|now apply B]|].
    split; [left; cbn; lia|].
    assert (CL : forall q, pos_zero q -> notnan (rmint q) -> notnan (rmaxt q) -> vx (rd q) <> 0 -> clear_ray both_items (full_refine_items both_items 3 3) q).
    { intros q P1 P2 P3 P4. split; [|constructor; [exact Logic.I|constructor; [exact Logic.I|constructor]]].
      split; [exact P1|]. split; [exact P2|]. split; [exact P3|]. intros p b _ _ H. contradiction. }
    split.
    { apply CL; [repeat split; cbn; lra|discriminate|discriminate|cbn; lra]. }
    split; [intros it t [<-|[<-|[]]] _; exact Logic.I|].
    intros it t l Hi HT [<-|[]]. destruct (both_touch it t Hi HT) as ([<-|[]] & ->). rewrite w_at5. split.
    + cbn. intros Q. apply (f_equal vz) in Q. cbn in Q. lra.
    + apply CL; [unfold pos_zero, sight; cbn [rd rdz vx vy vz]; auto|discriminate|discriminate|].
      cbn [sight rd w_lamp w_lamp_of lp_pos]. rewrite w_dir. cbn. lra.
  - split; [exact D|].
    assert (ONE : forall items, (forall it, In it items -> it = far_item \/ In it w_items) -> unambiguous items [w_lamp] ex_ray).
    { intros items HI. split.
      - intros it t Hi HT. assert (Hb : In it both_items) by (destruct (HI it Hi) as [-> | ?]; [now left|now right]).
        destruct (both_touch it t Hb HT) as ([<-|[]] & ->). split; [cbn; intros [= Q]; lra|]. split; [discriminate|]. split.
        + intros it' Hi' HT'. assert (Hb' : In it' both_items) by (destruct (HI it' Hi') as [-> | ?]; [now left|now right]).
          destruct (both_touch it' 5 Hb' HT') as ([<-|[]] & _). reflexivity.
        + intros f f' Hf Hf' _ _. cbn [length] in Hf, Hf'. lia.
      - intros it t l it' s Hi HT [<-|[]] Hi' q HT'. assert (Hb : In it both_items) by (destruct (HI it Hi) as [-> | ?]; [now left|now right]).
        destruct (both_touch it t Hb HT) as ([<-|[]] & ->). unfold q in *. rewrite w_at5 in *.
        assert (Z0 : s = 0).
        { destruct (HI it' Hi') as [-> | [<-|[]]].
          - apply far_touch in HT' as (HT' & _). rewrite (proj1 (sight_z _ _ s)) in HT'. lra.
          - apply w_touch in HT'. rewrite (proj1 (sight_z _ _ s)) in HT'. lra. }
        subst s. cbn [sight rmint rmaxt]. split.
        + cbn [offset_at it_geom]. intros [= Q]. lra.
        + cbn [w_lamp w_lamp_of lp_pos]. rewrite w_dist. intros [= Q]. lra. }
    split; [apply ONE; intros it H; now right|]. split.
    + split.
      * intros it t HT. split; [intros H; now right|]. intros Hb. now apply (both_touch it t Hb HT).
      * intros it t l it' s Hi HT [<-|[]] HT'. split; [intros H; now right|]. intros [<-|H]; [|exact H]. exfalso.
        assert (Hb : In it both_items) by now right. destruct (both_touch it t Hb HT) as ([<-|[]] & ->). rewrite w_at5 in *.
        apply far_touch in HT' as (Z1 & X1). rewrite (proj1 (sight_z _ _ s)) in Z1. rewrite (proj2 (sight_z _ _ s)) in X1. lra.
    + split; [apply ONE; intros it [<-|H]; [now left|now right]|]. split; [intros it; apply in_rev|discriminate].
Qed.
