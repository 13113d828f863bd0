(** Property theorems C24-C26, C64 (sampler).  Specification vocabulary: S_Sampler.v. *)
From Coq Require Import Reals Lra Lia List ZArith Bool Permutation.
From Verif Require Import Base M_Geometry M_Sampler S_Sampler P_Sampler P_Tiles P_Requests.
Import ListNotations.
Open Scope R_scope.

(** C24: any history of calls on a fresh sampler over the pixels [x0,x1) x [y0,y1). *)
Theorem C24_raster_order_once (x0 x1 y0 y1 xst yst : Z) (jitter : bool) (o c : R)
    (args : list (list sample * rnd)) :
  (x0 < x1)%Z -> (y0 < y1)%Z ->
  let s := stratified_make (IZR x0) (IZR x1) (IZR y0) (IZR y1) xst yst jitter o c in
  let W := Z.to_nat (x1 - x0) in
  let H := Z.to_nat (y1 - y0) in
  args_ok s args ->
  exists tr s', calls s args = Ok (tr, s') /\ length tr = length args /\
    forall k, (k < length args)%nat ->
      let old := fst (nth k args darg) in
      let out := nth k tr (false, []) in
      let px := (x0 + Z.of_nat (k mod W))%Z in
      let py := (y0 + Z.of_nat (k / W))%Z in
      if (k <? W * H)%nat then
        fst out = true /\ length (snd out) = length old /\
        (forall i, (i < length old)%nat -> sample_good s px py (nth i old dsmp) (nth i (snd out) dsmp)) /\
        one_per_cell (map (fun p => (imageX p - IZR px, imageY p - IZR py)) (snd out)) (xSamples s) (ySamples s)
      else out = (false, old).
Proof. intros HX HY. exact (calls_main x0 x1 y0 y1 xst yst jitter o c HX HY args). Qed.
Print Assumptions C24_raster_order_once.
Definition ex_rnd : rnd := mkRnd half half half half half [1; 0]%nat [0; 1]%nat
  (fun _ _ => half) (fun _ j => match j with O => [2; 0; 1]%nat | _ => [] end) (fun _ _ => half) (fun _ _ => half) (fun _ _ => []).
Definition ex_smp : sample := mkS 0 0 0 0 0 [3]%nat [] [[]] [].
Example C24_ex : let s := stratified_make 0 3 (-1) 1 2 0 true 0 1 in
  args_ok s [([ex_smp; ex_smp], ex_rnd); ([ex_smp; ex_smp], ex_rnd)].
Proof.
  assert (HF : in01 (/2)) by (unfold in01; lra).
  assert (A : length [ex_smp; ex_smp] = (2 * 1)%nat /\
    rnd_ok (stratified_make 0 3 (-1) 1 2 0 true 0 1) [ex_smp; ex_smp] ex_rnd).
  { split; [reflexivity|]. unfold rnd_ok.
    split; [cbn; unfold half; auto|]. split; [apply perm_swap|]. split; [apply Permutation_refl|].
    split; [cbn; unfold half; auto|].
    intros i j Hi. cbn in Hi.
    destruct i as [|[|i]]; [| |lia]; (destruct j as [|[|j]]; cbn; (split; [|apply Permutation_refl]));
      try apply Permutation_refl;
      (eapply Permutation_trans; [apply perm_swap|]; apply perm_skip, perm_swap). }
  apply Forall_cons; [exact A|]. apply Forall_cons; [exact A|constructor].
Qed.

(** C25 *)
Theorem C25_strata (n nx ny : nat) (jitter : bool) (r1 r2 : nat -> R) (p : list nat) :
  (forall i, in01 (r1 i)) -> (forall i, in01 (r2 i)) -> Permutation p (seq 0 n) ->
  one_per_stratum (stratified_sample_1d n jitter r1) n /\  one_per_cell (stratified_sample_2d nx ny jitter r1 r2) nx ny /\  one_per_stratum (latin_hypercube_1d n r1 p) n /\  one_per_stratum (map fst (latin_hypercube_2d n r2 p r1)) n /\  one_per_stratum (map snd (latin_hypercube_2d n r2 p r1)) n.
Proof.
  intros A B P. exact (conj (strat1d_strata n jitter r1 A) (conj (strat2d_cells nx ny jitter r1 r2 A B)
    (conj (lhs1_strata n r1 p A P) (lhs2_strata n r2 p r1 A B P)))).
Qed.
Print Assumptions C25_strata.
Example C25_ex : Permutation [2; 0; 1]%nat (seq 0 3) /\ in01 (99 / 100).
Proof.
  split; [|unfold in01; lra].
  eapply Permutation_trans; [apply perm_swap|]; apply perm_skip, perm_swap.
Qed.

(** C26: holds for windows containing the origin pixel ... *)
Theorem C26_partition_partial (s : sampler) (cnt : nat) (px py : Z) :
  (0 < cnt)%nat -> xs s <= 0 -> 1 <= xe s -> ys s <= 0 -> 1 <= ye s ->
  in_window (xs s, xe s, ys s, ye s) px py ->
  exists num, (num < cnt)%nat /\ in_window (compute_subwindow s num cnt) px py /\    forall num', (num' < cnt)%nat -> in_window (compute_subwindow s num' cnt) px py -> num' = num.
Proof. exact (tiles_partition s cnt px py). Qed.
Print Assumptions C26_partition_partial.
Example C26_ex : let s := stratified_make 0 640 0 480 4 4 true 0 1 in
  (0 < 16)%nat /\ xs s <= 0 /\ 1 <= xe s /\ ys s <= 0 /\ 1 <= ye s /\ in_window (xs s, xe s, ys s, ye s) 639 0.
Proof. cbn. repeat split; try lra; lia. Qed.
(** ... with genuine pixel rectangles when the tile counts divide the window; *)
Theorem C26_tile_is_window_partial (a b c d xst yst : Z) (jt : bool) (o cl : R) (cnt nx ny num : nat) :
  (a <= 0)%Z -> (1 <= b)%Z -> (c <= 0)%Z -> (1 <= d)%Z -> (0 < cnt)%nat -> (num < cnt)%nat ->
  tile_loop cnt (IZR b - IZR a) (IZR d - IZR c) cnt 1 = (nx, ny) ->
  (Z.of_nat nx | b - a)%Z -> (Z.of_nat ny | d - c)%Z ->
  exists a' b' c' d', (a' < b')%Z /\ (c' < d')%Z /\ (a <= a')%Z /\ (b' <= b)%Z /\ (c <= c')%Z /\ (d' <= d)%Z /\
    get_subsampler (imake a b c d xst yst jt o cl) num cnt =
      Some (imake a' b' c' d' (Z.max xst 1) (Z.max yst 1) jt o cl) /\
    compute_subwindow (imake a b c d xst yst jt o cl) num cnt = (IZR a', IZR b', IZR c', IZR d').
Proof. exact (tile_integer a b c d xst yst jt o cl cnt nx ny num). Qed.
Print Assumptions C26_tile_is_window_partial.
(** ... but a crop window starting at pixel 1 or later is dropped entirely, *)
Theorem C26_crop_window_lost_refuted (s : sampler) (num cnt : nat) :
  (0 < cnt)%nat -> (num < cnt)%nat -> 1 <= xs s -> xs s <= xe s -> get_subsampler s num cnt = None.
Proof. exact (tiles_lost s num cnt). Qed.
Print Assumptions C26_crop_window_lost_refuted.
(** ... and a tile of fractional width never ends: it keeps delivering samples past its window. *)
Theorem C26_fractional_tile_refuted : exists s num cnt t, (num < cnt)%nat /\
  s = imake 0 3 0 1 1 1 true 0 1 /\ get_subsampler s num cnt = Some t /\
  forall args, args_ok t args -> exists tr s', calls t args = Ok (tr, s') /\ Forall (fun r => fst r = true) tr /\
     xPos s' = INR (length args).
Proof. exact fractional_tile_bad. Qed.
Print Assumptions C26_fractional_tile_refuted.

(** C64 *)
Theorem C64_requests (rs : list (bool * nat)) (s : sample) (is : list nat) (s' : sample) (cnt : nat) :
  requests s rs = (is, s') ->
  length is = length rs /\
  (forall i, (i < length rs)%nat -> let '(b, n) := nth i rs (true, 0%nat) in
     nth_error (if b then n1D s' else n2D s') (nth i is 0%nat) = Some n) /\
  (forall i j, (i < length rs)%nat -> (j < length rs)%nat -> i <> j ->
     fst (nth i rs (true, 0%nat)) = fst (nth j rs (true, 0%nat)) -> nth i is 0%nat <> nth j is 0%nat) /\
  length (duplicate s' cnt) = cnt /\
  (forall d, In d (duplicate s' cnt) -> n1D d = n1D s' /\ n2D d = n2D s' /\
     length (oneD d) = length (n1D s') /\ length (twoD d) = length (n2D s')).
Proof. exact (requests_main rs s is s' cnt). Qed.
Print Assumptions C64_requests.
Example C64_ex : fst (requests (mkS 0 0 0 0 0 [] [] [] []) [(true, 4%nat); (false, 1%nat); (true, 9%nat)]) = [0; 0; 1]%nat.
Proof. reflexivity. Qed.
