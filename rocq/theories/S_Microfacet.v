(** Specification vocabulary for microfacet distributions: directions by polar coordinates, integration over the
    upper hemisphere, and inverting a cumulative distribution. *)
From Coq Require Import Reals.
From Coquelicot Require Import Coquelicot.
From Verif Require Import Base M_Geometry.
Open Scope R_scope.

(** The unit vector at polar angle [th] from the z axis and azimuth [ph]. *)
Definition polar (th ph : R) : vec := mkV (sin th * cos ph) (sin th * sin ph) (cos th).

(** [f] integrates to [v] over the upper hemisphere (solid angle measure sin(th) dth dph). *)
Definition hemisphere_integral (f : vec -> R) (v : R) : Prop :=
  exists inner : R -> R,
    (forall ph, is_RInt (fun th => f (polar th ph) * sin th) 0 (PI / 2) (inner ph)) /\
    is_RInt inner 0 (2 * PI) v.

(** [F] is the cumulative distribution on [a, b] of the continuous density [f]. *)
Definition cumulative (a b : R) (f F : R -> R) : Prop :=
  F a = 0 /\ F b = 1 /\ forall x, is_derive F x (f x).

(** [F] is the cumulative distribution on (0, 1] of the positive density [f], which need not be bounded at 0. *)
Definition cumulative01 (f F : R -> R) : Prop :=
  F 1 = 1 /\ (forall eps, 0 < eps -> exists d, 0 < d /\ forall x, 0 < x < d -> Rabs (F x) < eps) /\
  forall x, 0 < x -> is_derive F x (f x).

(** The unit vector at height [c] above the xy plane and azimuth [ph]. *)
Definition at_height (c ph : R) : vec := mkV (sqrt (1 - c * c) * cos ph) (sqrt (1 - c * c) * sin ph) c.

(** [sample wo ua up] draws half vectors: with [ua] uniform it inverts the cumulative distribution of the azimuth,
    with [up] uniform that of the height given the azimuth, where the joint density (per solid angle, at height c and
    azimuth ph) is [p c ph]; it turns the half vector to the side of wo, reflects wo about it, and reports the
    density of the reflected direction p / (4 wo.wh), or 0 if the half vector is at a right angle to wo or behind it.
    (Two azimuth variates, where the code calls tan(pi/2), are left out.) *)
Definition draws_half_vectors (p : R -> R -> R) (sample : vec -> R -> R -> R * vec) : Prop :=
  exists (a A : R -> R) (q C : R -> R -> R),
    cumulative 0 (2 * PI) a A /\ (forall ph, cumulative01 (q ph) (C ph)) /\
    (forall ph c, 0 < c -> a ph * q ph c = p c ph) /\
    forall wo ua up, 0 < ua < 1 -> 0 < up < 1 -> ua <> 1 / 4 -> ua <> 3 / 4 ->
      exists ph c wh, 0 <= ph <= 2 * PI /\ 0 < c < 1 /\ A ph = ua /\ C ph c = up /\
        (wh = at_height c ph \/ wh = vneg (at_height c ph)) /\ 0 <= vz wo * vz wh /\
        sample wo ua up = ((if Rlt_dec 0 (vdot wo wh) then p c ph / (4 * vdot wo wh) else 0),
                           vsub (vscale (2 * vdot wo wh) wh) wo).
