(** Vocabulary of the property theorems C301: two runs of the sampler which send the same camera samples. *)
From Coq Require Import Reals List.
From Verif Require Import Base M_Sampler.
(** position on the film, point of the lens and time; the numbers set aside for the integrator are not looked at *)
Definition same_camera (a b : sample) : Prop :=
  imageX a = imageX b /\ imageY a = imageY b /\ lens_u a = lens_u b /\ lens_v a = lens_v b /\ stime a = stime b.
(** the same random numbers for those five *)
Definition same_draws (a b : rnd) : Prop :=
  (forall i, r_ix a i = r_ix b i /\ r_iy a i = r_iy b i /\ r_lx a i = r_lx b i /\ r_ly a i = r_ly b i /\ r_t a i = r_t b i) /\
  p_lens a = p_lens b /\ p_time a = p_time b.
