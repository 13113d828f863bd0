(** Property theorems C52 for whole scenes.  Vocabulary: S_Integrator.v. *)
From Coq Require Import Reals Lra Lia List Bool ZArith.
From Verif Require Import Base M_Geometry M_MonteCarlo M_Aggregate M_Reflection M_Utility M_Spectrum M_Sampler M_Film M_Light M_Integrator M_Shapes M_BVH M_Primitive M_Material M_World.
From Verif Require Import S_Reflection S_Sampler S_Integrator.
From Verif Require Import S_Scene P_Scene2 P_Integrator Props_Integrator Props_World.
Import ListNotations.
Open Scope R_scope.
Lemma leaf_depth ps l : forall st st', sc_leaf ps l st = Ok st' -> rdepth (snd (fst st')) = rdepth (snd (fst st)).
Proof.
  induction l as [|k l IH]; intros [[h r] i] st'; cbn [sc_leaf]; [now intros [= <-]|].
  destruct (ps k) as [p|] eqn:EP; cbn [bind]; [|discriminate]. unfold gp_intersect.
  destruct (shape_intersect _ r) as [[hh|]|]; cbn [bind]; [| |discriminate]; intros H; apply IH in H; cbn [fst snd] in *; rewrite H; reflexivity.
Qed.
Lemma traverse_depth ps nodes fuel : forall idx todo st st',
  sc_traverse fuel ps nodes idx todo st = Ok (Some st') -> rdepth (snd (fst st')) = rdepth (snd (fst st)).
Proof.
  induction fuel as [|fuel IH]; intros idx todo [[h r] i] st'; cbn [sc_traverse]; [discriminate|].
  destruct (nth_error nodes idx) as [node|]; [|discriminate].
  destruct (box_test _ r).
  - destruct (0 <? l_nprim node)%nat.
    + destruct (sc_leaf _ _ _) as [st1|] eqn:EL; cbn [bind]; [|discriminate]. intros H. pose proof (leaf_depth ps _ _ _ EL) as H1.
      destruct todo as [|j todo]; [injection H as <-|apply IH in H; rewrite H]; exact H1.
    + destruct (64 <=? length todo)%nat; [discriminate|]. destruct (Rltb _ 0); intros H; now apply IH in H.
  - destruct todo as [|j todo]; [intros [= <-]; reflexivity|]. intros H; now apply IH in H.
Qed.
Lemma world_keeps_depth (w : world) : keeps_depth (env_of w).
Proof.
  intros r. cbn [env_of M_Integrator.hit]. unfold world_hit. destruct (scene_intersect _ _ _ _) as [[[[[|] q] i]|]|] eqn:E; try reflexivity; cbn [fst rd_with rd_ray].
  all: unfold scene_intersect in E; destruct (w_scene w) as [[nodes ps]|]; [|injection E; intros; now subst]; apply traverse_depth in E; exact E.
Qed.

(** ** Statements *)
(** In every scene of shapes, materials and lights recursive ray tracing ends, by Whitted's method and by direct lighting: from a camera ray of depth d after
    at most 2^(max_depth - d) - 1 surface interactions (1 when max_depth <= d + 1), whatever the random numbers. *)
Theorem C52_world_terminates (w : world) (u : nat -> R) (md : Z) (time : R) (r : raydiff) (k : nat) :
  let m := Nat.max 1 (Z.to_nat (md - rdepth (rd_ray r))) in
  (exists o, (forall fuel, (m <= fuel)%nat -> whitted w u md time fuel r k = Some o) /\
     forall L T i' k' calls, o = Ok (L, T, i', k', calls) -> (calls <= 2 ^ m - 1)%nat) /\
  forall (s : sample) (lo bo : list offset), exists o, (forall fuel, (m <= fuel)%nat -> direct_lighting w u s lo bo md time fuel r k = Some o) /\
     forall L T i' k' calls, o = Ok (L, T, i', k', calls) -> (calls <= 2 ^ m - 1)%nat.
Proof.
  intros m. pose proof (world_keeps_depth w) as KD. split; [|intros s lo bo]; exact (C52_recursion_terminates _ _ u md time _ r isect_new k KD).
Qed.
Print Assumptions C52_world_terminates.
(** The lit triangle of C270: from a camera ray and recursion limit 5 the answer is there after five levels. *)
Example C52_ex_world : exists sc, scene_make 4 (M_Primitive.full_refine_items w_items 3 3) = Ok sc /\ exists o, forall fuel, (5 <= fuel)%nat ->
  whitted (mkW sc (fun k => Matte (fun _ => w_colour k) (fun _ => 0) None) [] (S_Scene.scene_size sc) (fun _ _ _ _ _ => (false, vzero, vzero, vzero, vzero)))
    (fun _ => 0) 5 (rtime ex_ray) fuel (mkRD ex_ray false vzero vzero vzero vzero) 0 = Some o.
Proof.
  destruct C271_ex as (sc & HS & _). exists sc. split; [exact HS|].
  destruct (C52_world_terminates (mkW sc (fun k => Matte (fun _ => w_colour k) (fun _ => 0) None) [] (S_Scene.scene_size sc) (fun _ _ _ _ _ => (false, vzero, vzero, vzero, vzero)))
    (fun _ => 0) 5 (rtime ex_ray) (mkRD ex_ray false vzero vzero vzero vzero) 0) as ((o & H & _) & _). exists o. exact H.
Qed.
