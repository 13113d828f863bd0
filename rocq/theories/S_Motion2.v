(** Specification for moving a whole scene. *)
From Coq Require Import Reals List ZArith.
From Verif Require Import Base M_Geometry S_Geometry M_Transform S_Transform M_Shapes S_Shapes M_Primitive S_Scene S_World S_Motion.
Import ListNotations.
Open Scope R_scope.

(** A motion obtained through the API that keeps lengths and angles. *)
Definition rigid (A : transform) : Prop := built A /\ forall v w, vdot (t_vector A v) (t_vector A w) = vdot v w.
Definition geom_base (g : geom) : base := match g with GMesh b _ _ _ _ _ => b | GSphere b _ _ _ _ => b | GDisk b _ _ _ _ => b end.
(** The same object placed by [A] after its own placement. *)
Definition move_geom (A : transform) (g : geom) : geom :=
  match g with
  | GMesh b vi P N T uv => GMesh (moved_base A b) vi P N T uv
  | GSphere b rad z0 z1 pm => GSphere (moved_base A b) rad z0 z1 pm
  | GDisk b h rad ri pm => GDisk (moved_base A b) h rad ri pm
  end.
Definition move_item (A : transform) (it : item) : item :=
  mkItem (move_geom A (it_geom it)) (it_shape_id it) (it_id it) (it_material it) (it_light it).
Definition move_lamp (A : transform) (l : lamp) : lamp := mkLamp (t_point A (lp_pos l)) (lp_i l).
