(** The model with rounding (M_Float), continued: the choice of one of n things by a random number, and the weights of a
    bilinear texture lookup. *)
From Coq Require Import Reals ZArith List Bool.
From Flocq Require Import Core.
From Verif Require Import M_Float.
Open Scope R_scope.

(** integrator/utility.py:100-105 (the light taken by sample_one_light) and reflection/bsdf.py:113 (the lobe taken by
    BSDF.sample_f): min(ftoi(u * n), n - 1); utility/utility.py:74-76 (ftoi).  The integer n is converted exactly. *)
Definition f_choice (n : Z) (u : R) : Z := Z.min (Zfloor (fmul u (IZR n))) (n - 1).
(** montecarlo/distribution.py:123, 135-136 (the entries whose density Distribution2D.pdf returns): clip(ftoi(u * cnt), 0, cnt - 1) *)
Definition f_entry2 (cnt : Z) (u : R) : Z := Z.max 0 (Z.min (Zfloor (fmul u (IZR cnt))) (cnt - 1)).

(** texture/utility.py:339-342 (MIPMap.__triangle), one coordinate: position among [res] texels, the first texel and the
    weight of the second *)
Definition f_tex_pos (res : Z) (s : R) : R := fsub (fmul s (IZR res)) (1/2).
Definition f_tex_first (res : Z) (s : R) : Z := Zfloor (f_tex_pos res s).
Definition f_tex_weight (res : Z) (s : R) : R := fsub (f_tex_pos res s) (IZR (f_tex_first res s)).
(** texture/utility.py:343-346: the weighted sum of the texels (s0, t0), (s0, t0+1), (s0+1, t0), (s0+1, t0+1), added in this order *)
Definition f_bilinear (ds dt t00 t01 t10 t11 : R) : R :=
  fadd (fadd (fadd (fmul (fmul (fsub 1 ds) (fsub 1 dt)) t00) (fmul (fmul (fsub 1 ds) dt) t01)) (fmul (fmul ds (fsub 1 dt)) t10))
       (fmul (fmul ds dt) t11).
