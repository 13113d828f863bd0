(** More vocabulary for the integrator properties: what one light, one bounce and one path contribute. *)
From Coq Require Import Reals List Bool ZArith.
From Coquelicot Require Import Coquelicot.
From Verif Require Import Base M_Geometry M_MonteCarlo M_Aggregate M_Reflection M_Utility M_Spectrum M_Sampler M_Film M_Light M_Integrator S_Integrator.
Import ListNotations.
Open Scope R_scope.

(** some channel is at least 10^-5 *)
Definition bright (s : vec) : Prop := / 100000 <= vx s \/ / 100000 <= vy s \/ / 100000 <= vz s.
(** some channel is at least 10^-5 away from zero *)
Definition nonblack (s : vec) : Prop := / 100000 <= Rabs (vx s) \/ / 100000 <= Rabs (vy s) \/ / 100000 <= Rabs (vz s).
Definition random3 (u : nat -> R) (k : nat) : R * R * R := (u k, u (k + 1)%nat, u (k + 2)%nat).

(** The three numbers stored at position [j] of the arrays behind the offset [o]: the pair of the
    two-dimensional array, then the component number. *)
Definition stored (s : sample) (o : offset) (j : nat) (a : R * R * R) : Prop :=
  exists l2 l1, nth_error (twoD s) (of_dir o) = Some l2 /\ nth_error (oneD s) (of_com o) = Some l1 /\
    nth_error l2 j = Some (fst (fst a), snd (fst a)) /\ nth_error l1 j = Some (snd a).

(** the light [l], sampled with the numbers [a], contributes [x] to the radiance leaving [p] towards [wo]:
    f Li |cos| / pdf if neither factor is black and nothing is in between, otherwise nothing *)
Definition whitted_contrib {V} (e : env V) (p n wo : vec) (eps time : R) (b : bsdf) (l : light) (a : R * R * R) (x : vec) : Prop :=
  exists Li wi pdf vis, lt_sample l p eps a time = Ok (Li, wi, pdf, vis) /\
  ((bright Li /\ pdf <> 0 /\ exists f, bsdf_f b wo wi ALL = Ok f /\
      ((bright f /\ hit_p e vis = false /\ x = vscale (Rabs (vdot wi n) / pdf) (smul f Li)) \/
       ((~ bright f \/ hit_p e vis = true) /\ x = spec 0))) \/
   ((~ bright Li \/ pdf = 0) /\ x = spec 0)).
(** the same for the estimator shared by the direct-lighting and path integrators, for a delta light *)
Definition delta_contrib {V} (e : env V) (p n wo : vec) (eps time : R) (b : bsdf) (l : light) (a : R * R * R) (x : vec) : Prop :=
  exists Li wi pdf vis, lt_sample l p eps a time = Ok (Li, wi, pdf, vis) /\
  ((nonblack Li /\ 0 < pdf /\ exists f, bsdf_f b wo wi NOSPEC = Ok f /\
      ((nonblack f /\ hit_p e vis = false /\ x = vscale (Rabs (vdot wi n) / pdf) (smul f Li)) \/
       ((~ nonblack f \/ hit_p e vis = true) /\ x = spec 0))) \/
   ((~ nonblack Li \/ pdf <= 0) /\ x = spec 0)).

Definition mean (xs : list vec) : vec := vscale (/ INR (length xs)) (vsum xs).

(** Throughput after Russian roulette with the number [x]: [None] if the path is dropped. *)
Definition survivor (beta : vec) (x : R) : option vec :=
  let q := Rmin (1 / 2) (rgb_y beta) in
  if Rltb q x then None else Some (vscale (/ q) beta).

(** The radiance along a path, in a scene without participating medium: [carries e u md direct ps i beta v r k L k' c]
    says that from the [i]-th vertex (surface point [v] met by ray [r], throughput so far [beta], [k] random
    numbers used), the rest of the path carries [L], uses the numbers up to [k'] and casts [c] rays. *)
Section Carries.
Context {V : Type} (e : env V) (u : nat -> R) (md : Z)
  (direct : nat -> V -> raydiff -> vec -> vec -> vec -> bsdf -> nat -> res (vec * nat))
  (ps : nat -> res (R * R * R)).
(** direction sampling at a vertex: from the sample arrays for the first three vertices, then at random *)
Definition bounce_numbers (i k : nat) (a : R * R * R) (k' : nat) : Prop :=
  ((i < 3)%nat /\ ps i = Ok a /\ k' = k) \/ ((3 <= i)%nat /\ a = random3 u k /\ k' = (k + 3)%nat).
(** [here i v r k L wi w k']: at this vertex, emission and direct light sum to [L]; the sampled direction and the factor
    f |cos| / pdf are [Some (wi, w)], or None if the sampled value is black or has probability 0 *)
Definition here (i : nat) (v : V) (r : raydiff) (k : nat) (L : vec) (p : vec) (next : option (vec * vec)) (k' : nat) : Prop :=
  exists b Ld k1 a sm, v_bsdf e v r = Ok (p, b) /\
    direct i v r p (b_dgs_nn e v r) (vneg (rdir r)) b k = Ok (Ld, k1) /\
    L = vadd (v_le e v (vneg (rdir r))) Ld /\
    bounce_numbers i k1 a k' /\
    bsdf_sample b (vneg (rdir r)) (fst (fst a)) (snd (fst a)) (snd a) ALL = Ok sm /\
    match next with
    | None => ~ bright (sm_f sm) \/ sm_pdf sm = 0
    | Some (wi, w) => bright (sm_f sm) /\ sm_pdf sm <> 0 /\ sm_wi sm = Some wi /\
        w = vscale (Rabs (vdot wi (b_dgs_nn e v r)) / sm_pdf sm) (sm_f sm)
    end.
(** the throughput after the factor [w] and, from the fifth vertex on, Russian roulette *)
Definition thinned (i k : nat) (beta : vec) (out : option vec) (k' : nat) : Prop :=
  ((i <= 3)%nat /\ out = Some beta /\ k' = k) \/ ((3 < i)%nat /\ out = survivor beta (u k) /\ k' = S k).
Inductive carries : nat -> vec -> V -> raydiff -> nat -> vec -> nat -> nat -> Prop :=
| c_absorbed i beta v r k L p k' : here i v r k L p None k' -> carries i beta v r k (smul beta L) k' 0
| c_dropped i beta v r k L p wi w k1 k2 : here i v r k L p (Some (wi, w)) k1 ->
    thinned i k1 (smul beta w) None k2 -> carries i beta v r k (smul beta L) k2 0
| c_depth i beta v r k L p wi w k1 k2 beta' : here i v r k L p (Some (wi, w)) k1 ->
    thinned i k1 (smul beta w) (Some beta') k2 -> Z.of_nat i = md -> carries i beta v r k (smul beta L) k2 0
| c_escapes i beta v r k L p wi w k1 k2 beta' r' : here i v r k L p (Some (wi, w)) k1 ->
    thinned i k1 (smul beta w) (Some beta') k2 -> Z.of_nat i <> md ->
    hit e (child_ray p wi r (v_eps e v)) = (r', None) ->
    carries i beta v r k (vadd (smul beta L) (smul beta' (vsum (map (fun l => lt_le l r') (lights e))))) k2 1
| c_goes_on i beta v r k L p wi w k1 k2 beta' r' v' L' k3 c : here i v r k L p (Some (wi, w)) k1 ->
    thinned i k1 (smul beta w) (Some beta') k2 -> Z.of_nat i <> md ->
    hit e (child_ray p wi r (v_eps e v)) = (r', Some v') ->
    carries (S i) beta' v' r' k2 L' k3 c ->
    carries i beta v r k (vadd (smul beta L) L') k3 (S c).
End Carries.

(** channel-wise expectation of a random spectrum over one uniform number *)
Definition expected (f : R -> vec) (m : vec) : Prop :=
  is_RInt (fun x => vx (f x)) 0 1 (vx m) /\ is_RInt (fun x => vy (f x)) 0 1 (vy m) /\ is_RInt (fun x => vz (f x)) 0 1 (vz m).
