(** Model of pytracer/sampler: sample.py, utility.py, sampler/__init__.py, sampler/stratified.py.
    Random draws are explicit arguments: a jitter array is a function from the index, a shuffle is a list
    of indices. *)
From Coq Require Import Reals List ZArith Bool.
From Verif Require Import Base M_Geometry.
Import ListNotations.
Open Scope R_scope.

(** ** sampler/utility.py *)
(** numpy.tile(numpy.arange(n), m) and numpy.repeat(numpy.arange(m), n) *)
Definition tile (n m : nat) : list nat := concat (repeat (seq 0 n) m).
Definition repeats (m n : nat) : list nat := flat_map (fun j => repeat j n) (seq 0 m).
(** elementwise (a + rng(n)) / d : the i-th entry uses the i-th random number *)
Definition jittered (a : list nat) (r : nat -> R) (d : nat) : list R :=
  map (fun '(i, x) => (INR x + r i) / INR d) (combine (seq 0 (length a)) a).
Definition half : nat -> R := fun _ => / 2.
(** numpy.random.shuffle: the permutation is given by the list of source indices *)
Definition shuffle {A} (d : A) (p : list nat) (l : list A) : list A := map (fun i => nth i l d) p.
(** sampler/utility.py:18-22 *)
Definition stratified_sample_1d (n : nat) (jitter : bool) (r : nat -> R) : list R :=
  jittered (seq 0 n) (if jitter then r else half) n.
(** sampler/utility.py:25-32 *)
Definition stratified_sample_2d (nx ny : nat) (jitter : bool) (rx ry : nat -> R) : list (R * R) :=
  if jitter then combine (jittered (tile nx ny) rx nx) (jittered (repeats ny nx) ry ny)
  else combine (jittered (tile nx ny) half nx) (jittered (repeats ny nx) half ny).
(** sampler/utility.py:35-38 *)
Definition latin_hypercube_1d (n : nat) (r : nat -> R) (p : list nat) : list R :=
  shuffle 0 p (jittered (seq 0 n) r n).
(** sampler/utility.py:41-44 *)
Definition latin_hypercube_2d (n : nat) (ry : nat -> R) (p : list nat) (rx : nat -> R) : list (R * R) :=
  let ys := shuffle 0 p (jittered (seq 0 n) ry n) in
  combine (jittered (seq 0 n) rx n) ys.

(** ** sampler/sample.py:15-64 (CameraSample, Sample) *)
Record sample := mkS {
  imageX : R; imageY : R; lens_u : R; lens_v : R; stime : R;
  n1D : list nat; n2D : list nat;
  oneD : list (list R); twoD : list (list (R * R)) }.
(** sampler/sample.py:54-63 (duplicate).  The code shares the n1D/n2D lists between the copies. *)
Definition sample_dup (s : sample) : sample :=
  mkS 0 0 0 0 0 (n1D s) (n2D s) (repeat [] (length (n1D s))) (repeat [] (length (n2D s))).
Definition duplicate (s : sample) (cnt : nat) : list sample := repeat (sample_dup s) cnt.
(** sampler/sample.py:65-71 (add_1d) and 73-75 (add_2d): new sample and returned index *)
Definition add_1d (s : sample) (num : nat) : sample * nat :=
  let n := n1D s ++ [num] in
  (mkS (imageX s) (imageY s) (lens_u s) (lens_v s) (stime s) n (n2D s) (oneD s) (twoD s), (length n - 1)%nat).
Definition add_2d (s : sample) (num : nat) : sample * nat :=
  let n := n2D s ++ [num] in
  (mkS (imageX s) (imageY s) (lens_u s) (lens_v s) (stime s) (n1D s) n (oneD s) (twoD s), (length n - 1)%nat).

(** ** StratifiedSampler *)
(** sampler/sampler/stratified.py:33-42 and sampler/sampler/__init__.py:27-40 *)
Record sampler := mkSampler {
  xs : R; xe : R; ys : R; ye : R; jit : bool; s_open : R; s_close : R;
  xPos : R; yPos : R; xSamples : nat; ySamples : nat }.
Definition stratified_make (xs xe ys ye : R) (xst yst : Z) (jitter : bool) (o c : R) : sampler :=
  mkSampler xs xe ys ye jitter o c xs ys (Z.to_nat (Z.max xst 1)) (Z.to_nat (Z.max yst 1)).

(** One call's random draws. *)
Record rnd := mkRnd {
  r_ix : nat -> R; r_iy : nat -> R; r_lx : nat -> R; r_ly : nat -> R; r_t : nat -> R;
  p_lens : list nat; p_time : list nat;
  (** integrator patterns: sample number, request number *)
  r_1 : nat -> nat -> nat -> R; p_1 : nat -> nat -> list nat;
  r_2x : nat -> nat -> nat -> R; r_2y : nat -> nat -> nat -> R; p_2 : nat -> nat -> list nat }.

(** enumerate(l) *)
Definition enumerate {A} (l : list A) : list (nat * A) := combine (seq 0 (length l)) l.
(** sampler/sampler/stratified.py:69-81: fill the i-th sample *)
Definition fill_sample (s : sampler) (rn : rnd) (img lens : list (R * R)) (time : list R)
    (i : nat) (smp : sample) : sample :=
  mkS (fst (nth i img (0, 0))) (snd (nth i img (0, 0)))
      (fst (nth i lens (0, 0))) (snd (nth i lens (0, 0)))
      (lerp (nth i time 0) (s_open s) (s_close s))
      (n1D smp) (n2D smp)
      (map (fun '(j, n) => latin_hypercube_1d n (r_1 rn i j) (p_1 rn i j)) (enumerate (n1D smp)))
      (map (fun '(j, n) => latin_hypercube_2d n (r_2y rn i j) (p_2 rn i j) (r_2x rn i j)) (enumerate (n2D smp))).
(** sampler/sampler/stratified.py:44-88 (generate); the samples are updated in place *)
Definition generate (s : sampler) (samples : list sample) (rn : rnd) : res (bool * list sample * sampler) :=
  if Reqb (yPos s) (ye s) then Ok (false, samples, s)
  else
    let n := (xSamples s * ySamples s)%nat in
    if negb (Nat.eqb n (length samples)) then Err AssertionError
    else
      let img := stratified_sample_2d (xSamples s) (ySamples s) (jit s) (r_ix rn) (r_iy rn) in
      let lens := stratified_sample_2d (xSamples s) (ySamples s) (jit s) (r_lx rn) (r_ly rn) in
      let time := stratified_sample_1d n (jit s) (r_t rn) in
      let img := map (fun '(x, y) => (x + xPos s, y + yPos s)) img in
      let lens := shuffle (0, 0) (p_lens rn) lens in
      let time := shuffle 0 (p_time rn) time in
      let samples' := map (fun '(i, smp) => fill_sample s rn img lens time i smp) (enumerate samples) in
      let xp := xPos s + 1 in
      let '(xp, yp) := if Reqb xp (xe s) then (xs s, yPos s + 1) else (xp, yPos s) in
      Ok (true, samples', mkSampler (xs s) (xe s) (ys s) (ye s) (jit s) (s_open s) (s_close s) xp yp
                                    (xSamples s) (ySamples s)).
(** sampler/sampler/stratified.py:98-99 *)
Definition maximum_sample_cnt (s : sampler) : nat := (xSamples s * ySamples s)%nat.
(** sampler/sampler/stratified.py:90-96 *)
Definition round_size (size : nat) : nat := size.

(** sampler/sampler/__init__.py:101-103; [fuel] >= cnt always suffices for dx, dy >= 0 *)
Fixpoint tile_loop (fuel : nat) (dx dy : R) (nx ny : nat) : nat * nat :=
  match fuel with
  | O => (nx, ny)
  | S f =>
      if Nat.even nx && Rltb (2 * dx * INR ny) (dy * INR nx)
      then tile_loop f dx dy (Nat.div2 nx) (2 * ny)
      else (nx, ny)
  end.
(** sampler/sampler/__init__.py:87-111 (compute_subwindow); cnt >= 1 *)
Definition compute_subwindow (s : sampler) (num cnt : nat) : R * R * R * R :=
  let dx := xe s - xs s in
  let dy := ye s - ys s in
  let '(nx, ny) := tile_loop cnt dx dy cnt 1 in
  let x0 := (num mod nx)%nat in
  let y0 := (num / nx)%nat in
  let fx := fun k => clip (INR k / INR nx) (xs s) (xe s) in
  let fy := fun k => clip (INR k / INR ny) (ys s) (ye s) in
  (lerp (fx x0) (xs s) (xe s), lerp (fx (S x0)) (xs s) (xe s),
   lerp (fy y0) (ys s) (ye s), lerp (fy (S y0)) (ys s) (ye s)).
(** sampler/sampler/stratified.py:101-110 (get_subsampler) *)
Definition get_subsampler (s : sampler) (num cnt : nat) : option sampler :=
  let '(a, b, c, d) := compute_subwindow s num cnt in
  if Reqb a b || Reqb c d then None
  else Some (stratified_make a b c d (Z.of_nat (xSamples s)) (Z.of_nat (ySamples s)) (jit s) (s_open s) (s_close s)).
