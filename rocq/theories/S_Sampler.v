(** Specification vocabulary for the sampler properties. *)
From Coq Require Import Reals List ZArith Permutation.
From Verif Require Import Base M_Sampler.
Import ListNotations.
Open Scope R_scope.

Definition in01 (x : R) : Prop := 0 <= x < 1.
(** random numbers in [0,1); shuffles are permutations of the index range *)
Definition rnd_ok (s : sampler) (samples : list sample) (rn : rnd) : Prop :=
  let n := (xSamples s * ySamples s)%nat in
  (forall i, in01 (r_ix rn i) /\ in01 (r_iy rn i) /\ in01 (r_lx rn i) /\ in01 (r_ly rn i) /\ in01 (r_t rn i)) /\
  Permutation (p_lens rn) (seq 0 n) /\ Permutation (p_time rn) (seq 0 n) /\
  (forall i j k, in01 (r_1 rn i j k) /\ in01 (r_2x rn i j k) /\ in01 (r_2y rn i j k)) /\
  (forall i j, (i < length samples)%nat ->
     Permutation (p_1 rn i j) (seq 0 (nth j (n1D (nth i samples (mkS 0 0 0 0 0 [] [] [] []))) 0%nat)) /\
     Permutation (p_2 rn i j) (seq 0 (nth j (n2D (nth i samples (mkS 0 0 0 0 0 [] [] [] []))) 0%nat))).

(** exactly one of the values of l lies in each of n equal strata of [0,1) *)
Definition one_per_stratum (l : list R) (n : nat) : Prop :=
  length l = n /\
  forall i, (i < n)%nat -> exists k, (k < n)%nat /\ INR i / INR n <= nth k l 0 < INR (S i) / INR n /\
    forall k', (k' < n)%nat -> INR i / INR n <= nth k' l 0 < INR (S i) / INR n -> k' = k.
(** exactly one of the points lies in each cell of an nx-by-ny grid *)
Definition one_per_cell (l : list (R * R)) (nx ny : nat) : Prop :=
  length l = (nx * ny)%nat /\
  forall i j, (i < nx)%nat -> (j < ny)%nat -> exists k, (k < nx * ny)%nat /\
    (let cell k := INR i / INR nx <= fst (nth k l (0, 0)) < INR (S i) / INR nx /\
                   INR j / INR ny <= snd (nth k l (0, 0)) < INR (S j) / INR ny in
     cell k /\ forall k', (k' < nx * ny)%nat -> cell k' -> k' = k).

(** A history of calls: the arguments of each call and what it did. *)
Fixpoint calls (s : sampler) (args : list (list sample * rnd)) : res (list (bool * list sample) * sampler) :=
  match args with
  | [] => Ok ([], s)
  | (smp, rn) :: rest =>
      do (b, smp', s') <- generate s smp rn;
      do (tr, s'') <- calls s' rest;
      Ok ((b, smp') :: tr, s'')
  end.
(** every call's arguments are as the documentation demands *)
Definition args_ok (s : sampler) (args : list (list sample * rnd)) : Prop :=
  Forall (fun a => length (fst a) = (xSamples s * ySamples s)%nat /\ rnd_ok s (fst a) (snd a)) args.
(** position inside pixel (px, py), lens in [0,1)^2, time in the shutter interval, requested
    patterns of the requested sizes, one value per stratum *)
Definition sample_good (s : sampler) (px py : Z) (old new : sample) : Prop :=
  IZR px <= imageX new < IZR px + 1 /\ IZR py <= imageY new < IZR py + 1 /\
  in01 (lens_u new) /\ in01 (lens_v new) /\
  (s_open s <= s_close s -> s_open s <= stime new <= s_close s) /\
  length (oneD new) = length (n1D old) /\ length (twoD new) = length (n2D old) /\
  (forall j, (j < length (n1D old))%nat -> one_per_stratum (nth j (oneD new) []) (nth j (n1D old) 0%nat)) /\
  (forall j, (j < length (n2D old))%nat ->
     one_per_stratum (map fst (nth j (twoD new) [])) (nth j (n2D old) 0%nat) /\
     one_per_stratum (map snd (nth j (twoD new) [])) (nth j (n2D old) 0%nat)).

(** the pixels of a half-open window *)
Definition in_window (w : R * R * R * R) (px py : Z) : Prop :=
  let '(a, b, c, d) := w in a <= IZR px < b /\ c <= IZR py < d.

(** a history of integrator requests: true = 1D, false = 2D, with the requested number *)
Fixpoint requests (s : sample) (rs : list (bool * nat)) : list nat * sample :=
  match rs with
  | [] => ([], s)
  | (b, n) :: rest =>
      let '(s', i) := if b then add_1d s n else add_2d s n in
      let '(is, s'') := requests s' rest in (i :: is, s'')
  end.

(** a spectrum with components of both infinite signs *)
Definition opposite_infinities (L : V3 E) : Prop :=
  (vx L = PInf \/ vy L = PInf \/ vz L = PInf) /\ (vx L = NInf \/ vy L = NInf \/ vz L = NInf).
(** a sampler over an integer window *)
Definition imake (a b c d : Z) xst yst j o cl : sampler := stratified_make (IZR a) (IZR b) (IZR c) (IZR d) xst yst j o cl.

