(** Tighter statements, prompted by edits of the model that earlier theorems did not notice. *)
From Coq Require Import Reals List Bool Lra Psatz.
From Verif Require Import Base M_Geometry S_Geometry P_Geometry.
Open Scope R_scope.

(** C06: the frame around any vector, not only unit ones: the first axis is the vector, the second a unit vector perpendicular to it, the third
    their cross product; around the zero vector it is the standard frame. *)
Theorem C06_frames (v : vec) :
  (v <> vzero -> exists b, coordinate_system v = (v, b, vcross v b) /\ unit b /\ orth v b)
  /\ coordinate_system vzero = (mkV 1 0 0, mkV 0 1 0, mkV 0 0 1).
Proof.
  split.
  - intros NZ. unfold coordinate_system.
    assert (L : Reqb (vlength v) 0 = false).
    { unfold Reqb. destruct (Req_EM_T (vlength v) 0) as [E|E]; [|reflexivity]. exfalso. apply NZ. unfold vlength, sq_length in E.
      apply sqrt_eq_0 in E; [|nra]. apply V3_eq; unfold vzero; cbn [vx vy vz]; nra. }
    rewrite L. destruct v as [x y z]. cbn [vx vy vz] in *.
    assert (K : forall a, 0 < a -> sqrt a <> 0 /\ sqrt a * sqrt a = a).
    { intros a H. pose proof (sqrt_lt_R0 a H). split; [lra|]. apply sqrt_sqrt. lra. }
    destruct (Rltb (Rabs y) (Rabs x)) eqn:C.
    + apply Rltb_true in C. assert (X : x <> 0). { intros ->. rewrite Rabs_R0 in C. pose proof (Rabs_pos y). lra. }
      assert (P : 0 < x * x + z * z) by nra. destruct (K _ P) as (S0 & S1). set (s := sqrt (x * x + z * z)) in *.
      eexists. split; [reflexivity|]. split.
      * unfold unit; cbn [vx vy vz]. replace (_ + _ + _) with ((x * x + z * z) / (s * s)) by (field; exact S0).
        rewrite S1. replace ((x * x + z * z) / (x * x + z * z)) with 1 by (field; lra). reflexivity.
      * unfold orth; cbn [vx vy vz]. ring.
    + apply Rltb_false in C. assert (P : 0 < y * y + z * z).
      { destruct (Req_dec y 0) as [->|Y]; [|nra]. rewrite Rabs_R0 in C. assert (x = 0) by (pose proof (Rle_abs x); pose proof (Rle_abs (- x)); rewrite Rabs_Ropp in *; lra). subst x.
        destruct (Req_dec z 0) as [->|Q]; [|nra]. exfalso. now apply NZ. }
      destruct (K _ P) as (S0 & S1). set (s := sqrt (y * y + z * z)) in *.
      eexists. split; [reflexivity|]. split.
      * unfold unit; cbn [vx vy vz]. replace (_ + _ + _) with ((y * y + z * z) / (s * s)) by (field; exact S0).
        rewrite S1. replace ((y * y + z * z) / (y * y + z * z)) with 1 by (field; lra). reflexivity.
      * unfold orth; cbn [vx vy vz]. ring.
  - unfold coordinate_system, vlength, sq_length, vzero; cbn [vx vy vz]. replace (0 * 0 + 0 * 0 + 0 * 0) with 0 by ring.
    replace (Reqb _ 0) with true; [reflexivity|]. symmetry. unfold Reqb.
    match goal with |- context [Req_EM_T ?a 0] => destruct (Req_EM_T a 0) as [E|E]; [reflexivity|] end. exfalso. apply E. try apply sqrt_0.
Qed.
Print Assumptions C06_frames.
Example C06_frames_ex : mkV 0 3 4 <> vzero. Proof. intros E. apply (f_equal vy) in E. unfold vzero in E. cbn in E. lra. Qed.
