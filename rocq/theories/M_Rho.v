(** Model of the albedo estimates: reflection/bdf/bdf.py (rho_hh) and reflection/bsdf.py (rho_hd, rho_hh).
    rho_hd of a single lobe is in M_Reflection.v. *)
From Coq Require Import Reals List ZArith Bool.
From Verif Require Import Base M_Geometry M_MonteCarlo M_Reflection M_Sampler.
Import ListNotations.
Open Scope R_scope.

(** bdf.py:146-164, the loop body for i = 0, 1, ...: [i] counts up, [n] iterations are left *)
Fixpoint rho_hh_loop (b : bdf) (i n : nat) (s1 s2 : list (R * R)) (acc : vec) : res vec :=
  match n with
  | O => Ok acc
  | S n' =>
      match nth_error s1 i, nth_error s2 i with
      | Some (a1, a2), Some (b1, b2) =>
          let wo := uniform_sample_hemisphere a1 a2 in
          let pdf_o := 1 / (2 * PI) in
          do s <- bdf_sample b wo b1 b2;
          match s with
          | (pdf_i, Some (wi, f)) =>
              rho_hh_loop b (S i) n' s1 s2
                (if Rltb 0 pdf_i
                 then vadd acc (sdiv (vscale (abs_cos_theta wo) (vscale (abs_cos_theta wi) f)) (pdf_o * pdf_i))
                 else acc)
          | (_, None) => rho_hh_loop b (S i) n' s1 s2 acc
          end
      | _, _ => Err IndexError
      end
  end.
(** bdf.py:146-164, 199-200, 225-226, 337-338 *)
Fixpoint bdf_rho_hh (b : bdf) (n : nat) (s1 s2 : list (R * R)) : res vec :=
  match b with
  | Lambertian r => Ok r
  | BRDF2BTDF b => bdf_rho_hh b n s1 s2
  | ScaledBDF _ _ => Err AttributeError
  | _ => do r <- rho_hh_loop b 0 n s1 s2 (spec 0); Ok (sdiv r (PI * INR n))
  end.
(** bsdf.py:236-241, 253-258: the sum over matching lobes of an estimate *)
Fixpoint sum_rho (rho : bdf -> res vec) (l : list bdf) (flags : Z) (acc : vec) : res vec :=
  match l with
  | [] => Ok acc
  | b :: l' => if match_flag b flags then do r <- rho b; sum_rho rho l' flags (vadd acc r)
               else sum_rho rho l' flags acc
  end.
(** bsdf.py:226-241: [rx], [ry] are the random numbers of stratified_sample_2d; [wo] is passed on as it is *)
Definition bsdf_rho_hd (s : bsdf) (wo : vec) (flags : Z) (sq : nat) (rx ry : nat -> R) : res vec :=
  let smp := stratified_sample_2d sq sq true rx ry in
  sum_rho (fun b => bdf_rho_hd b wo smp) (bs_bdfs s) flags (spec 0).
(** bsdf.py:243-258 *)
Definition bsdf_rho_hh (s : bsdf) (flags : Z) (sq : nat) (rx ry rx' ry' : nat -> R) : res vec :=
  let s1 := stratified_sample_2d sq sq true rx ry in
  let s2 := stratified_sample_2d sq sq true rx' ry' in
  sum_rho (fun b => bdf_rho_hh b (sq * sq) s1 s2) (bs_bdfs s) flags (spec 0).
