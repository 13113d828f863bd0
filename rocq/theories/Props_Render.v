(** C221: the rendered picture. *)
From Coq Require Import Reals Lra Lia List Bool ZArith Permutation.
From Verif Require Import Base M_Geometry M_Sampler M_Film M_Renderer S_Sampler S_Film P_Sampler P_Film P_Film3 P_Renderer M_Render P_Render.
Import ListNotations.
Open Scope R_scope.

Lemma extent_window f x0 x1 y0 y1 : (0 < xcnt f)%Z -> (0 < ycnt f)%Z -> /2 <= f_xw (ffilt f) -> /2 <= f_yw (ffilt f) ->
  get_sample_extent f = (x0, x1, y0, y1) ->
  (x0 <= xstart f)%Z /\ (xstart f + xcnt f <= x1)%Z /\ (y0 <= ystart f)%Z /\ (ystart f + ycnt f <= y1)%Z.
Proof.
  intros XC YC A B [= <- <- <- <-].
  assert (F : forall r z, r <= IZR z -> (Zfloor r <= z)%Z).
  { intros r z H. rewrite <- (Zfloor_IZR z). now apply Zfloor_mono. }
  repeat split; first [apply F|apply Zfloor_ge]; try rewrite plus_IZR; lra.
Qed.

(** C221: rendering over the film's own sample extent succeeds, and every pixel of the picture is a weighted average of
    what the rays saw. *)
Theorem C221_pixels_between (W : Type) (cam : sample -> W -> res (R * raydiff * W)) (hitp : raydiff -> W -> res (bool * W))
    (li : raydiff -> sample -> W -> res (V3 E * W)) (lo hi : vec)
    (xr yr : Z) (flt : filt) (c0 c1 c2 c3 : R) (x0 x1 y0 y1 xst yst : Z) (jitter : bool) (o c : R)
    (orig : sample) (rn : nat -> rnd) (w : W) (sc : R) (fuel : nat) :
  (* the camera gives every ray weight 1; nothing raises; radiance lies between lo and hi *)
  (forall smp w, exists r w', cam smp w = Ok (1, r, w')) ->
  (forall r w, exists h w', hitp r w = Ok (h, w') /\ (h = false -> vle lo vzero /\ vle vzero hi)) ->
  (forall r smp w, exists L w', li r smp w = Ok (vmap Fin L, w') /\ vle lo L /\ vle L hi) ->
  vle vzero lo ->
  (* the filter is nonnegative, positive inside, and reaches at least half a pixel *)
  /2 <= f_xw flt -> /2 <= f_yw flt -> (forall a b, 0 <= f_eval flt a b) ->
  (forall a b, 0 <= a < f_xw flt -> 0 <= b < f_yw flt -> 0 < f_eval flt a b) ->
  let f := film_make xr yr flt c0 c1 c2 c3 in
  get_sample_extent f = (x0, x1, y0, y1) ->
  let s := stratified_make (IZR x0) (IZR x1) (IZR y0) (IZR y1) xst yst jitter o c in
  (forall k, rnd_ok s (duplicate orig (xSamples s * ySamples s)) (rn k)) ->
  (Z.to_nat (x1 - x0) * Z.to_nat (y1 - y0) < fuel)%nat ->
  exists img, render cam hitp li s orig rn w fuel f sc = Some (Ok img) /\
    forall x y, in_film f x y -> exists avg, vle lo avg /\ vle avg hi /\
      vclose (1e-6 * vabs1 avg) (nth (Z.to_nat (x - xstart f)) (nth (Z.to_nat (y - ystart f)) img []) vzero) avg.
Proof.
  intros Hcam Hhit Hli Hlo Hxw Hyw NN PP f GE s RN Hfu.
  destruct (extent_window f x0 x1 y0 y1) as (A & B & C & D); [unfold f, film_make; cbn [xcnt]; lia|unfold f, film_make; cbn [ycnt]; lia|exact Hxw|exact Hyw|exact GE|].
  now apply (render_main W cam hitp li lo hi xr yr flt c0 c1 c2 c3 x0 x1 y0 y1 xst yst jitter o c orig rn w sc fuel).
Qed.
Print Assumptions C221_pixels_between.

(** the furnace picture: if every ray sees radiance L, so does every pixel *)
Theorem C221_uniform (W : Type) (cam : sample -> W -> res (R * raydiff * W)) (hitp : raydiff -> W -> res (bool * W))
    (li : raydiff -> sample -> W -> res (V3 E * W)) (L : vec)
    (xr yr : Z) (flt : filt) (c0 c1 c2 c3 : R) (x0 x1 y0 y1 xst yst : Z) (jitter : bool) (o c : R)
    (orig : sample) (rn : nat -> rnd) (w : W) (sc : R) (fuel : nat) :
  (forall smp w, exists r w', cam smp w = Ok (1, r, w')) ->
  (forall r w, exists w', hitp r w = Ok (true, w')) ->
  (forall r smp w, exists w', li r smp w = Ok (vmap Fin L, w')) ->
  vle vzero L ->
  /2 <= f_xw flt -> /2 <= f_yw flt -> (forall a b, 0 <= f_eval flt a b) ->
  (forall a b, 0 <= a < f_xw flt -> 0 <= b < f_yw flt -> 0 < f_eval flt a b) ->
  let f := film_make xr yr flt c0 c1 c2 c3 in
  get_sample_extent f = (x0, x1, y0, y1) ->
  let s := stratified_make (IZR x0) (IZR x1) (IZR y0) (IZR y1) xst yst jitter o c in
  (forall k, rnd_ok s (duplicate orig (xSamples s * ySamples s)) (rn k)) ->
  (Z.to_nat (x1 - x0) * Z.to_nat (y1 - y0) < fuel)%nat ->
  exists img, render cam hitp li s orig rn w fuel f sc = Some (Ok img) /\
    forall x y, in_film f x y ->
      vclose (1e-6 * vabs1 L) (nth (Z.to_nat (x - xstart f)) (nth (Z.to_nat (y - ystart f)) img []) vzero) L.
Proof.
  intros Hcam Hhit Hli HL Hxw Hyw NN PP f GE s RN Hfu.
  destruct (C221_pixels_between W cam hitp li L L xr yr flt c0 c1 c2 c3 x0 x1 y0 y1 xst yst jitter o c orig rn w sc fuel) as (img & R & P); auto.
  { intros r w0. destruct (Hhit r w0) as (w' & ->). exists true, w'. split; [reflexivity|discriminate]. }
  { intros r smp w0. destruct (Hli r smp w0) as (w' & ->). exists L, w'. split; [reflexivity|]. unfold vle; lra. }
  exists img. split; [exact R|]. intros x y IN. destruct (P x y IN) as (avg & A & B & C).
  replace avg with L in C; [exact C|]. destruct avg as [p q r], L as [p' q' r']. unfold vle in A, B. cbn in A, B. apply V3_eq; cbn; lra.
Qed.
Print Assumptions C221_uniform.

(** a one-by-two-pixel film with a half-pixel box filter, one sample per pixel *)
Definition ex_rnd : rnd := mkRnd (fun _ => /2) (fun _ => /2) (fun _ => /2) (fun _ => /2) (fun _ => /2) [0]%nat [0]%nat (fun _ _ _ => /2) (fun _ _ => [])
  (fun _ _ _ => /2) (fun _ _ _ => /2) (fun _ _ => []).
Definition ex_rd : raydiff := mkRD (mkRay vzero (mkV 0 0 1) (mkV false false false) (Fin 0) PInf 0 0) false vzero vzero vzero vzero.
Example C221_ex : exists img,
  render (fun _ w => Ok (1, ex_rd, w))
    (fun _ w => Ok (true, w)) (fun _ _ w => Ok (vmap Fin (mkV 1 2 3), w))
    (stratified_make (IZR 0) (IZR 2) (IZR 0) (IZR 3) 1 1 true 0 1) (mkS 0 0 0 0 0 [] [] [] []) (fun _ => ex_rnd) tt 100
    (film_make 1 2 (box_filter (/2) (/2)) 0 1 0 1) 1 = Some (Ok img) /\
  vclose (1e-6 * 6) (nth 0 (nth 1 img []) vzero) (mkV 1 2 3).
Proof.
  assert (EX : xstart (film_make 1 2 (box_filter (/2) (/2)) 0 1 0 1) = 0%Z) by (cbn; rewrite Rmult_0_r; apply (Zceil_IZR 0)).
  assert (EY : ystart (film_make 1 2 (box_filter (/2) (/2)) 0 1 0 1) = 0%Z) by (cbn; rewrite Rmult_0_r; apply (Zceil_IZR 0)).
  assert (CX : xcnt (film_make 1 2 (box_filter (/2) (/2)) 0 1 0 1) = 1%Z).
  { cbn. rewrite Rmult_0_r, Rmult_1_r, (Zceil_IZR 0), (Zceil_IZR 1). reflexivity. }
  assert (CY : ycnt (film_make 1 2 (box_filter (/2) (/2)) 0 1 0 1) = 2%Z).
  { cbn. rewrite Rmult_0_r, Rmult_1_r, (Zceil_IZR 0), (Zceil_IZR 2). reflexivity. }
  destruct (C221_uniform unit (fun _ w => Ok (1, ex_rd, w))
    (fun _ w => Ok (true, w)) (fun _ _ w => Ok (vmap Fin (mkV 1 2 3), w)) (mkV 1 2 3) 1 2 (box_filter (/2) (/2)) 0 1 0 1 0 2 0 3 1 1 true 0 1
    (mkS 0 0 0 0 0 [] [] [] []) (fun _ => ex_rnd) tt 1 100) as (img & R & P).
  - eauto.
  - eauto.
  - eauto.
  - unfold vle; cbn; lra.
  - cbn; lra.
  - cbn; lra.
  - intros; cbn; lra.
  - intros; cbn; lra.
  - unfold get_sample_extent. rewrite EX, EY, CX, CY. cbn [ffilt film_make f_xw f_yw box_filter].
    replace (0 + /2 - /2) with (IZR 0) by lra. replace (0 + /2 + 1 + /2) with (IZR 2) by lra. replace (0 + /2 + 2 + /2) with (IZR 3) by lra.
    now rewrite !Zfloor_IZR.
  - intros k. assert (HF : in01 (/2)) by (unfold in01; lra). unfold rnd_ok. cbn -[Pos.to_nat]. change (Pos.to_nat 1) with 1%nat. cbn. split; [auto|].
    split; [apply Permutation_refl|]. split; [apply Permutation_refl|]. split; [auto|].
    intros i j Hi. destruct i; [|lia]. destruct j; split; apply Permutation_refl.
  - cbn. lia.
  - exists img. split; [exact R|]. specialize (P 0%Z 1%Z). rewrite EX, EY in P. cbn [Z.to_nat Z.sub Z.add Z.opp Pos.to_nat] in P.
    assert (IN : in_film (film_make 1 2 (box_filter (/2) (/2)) 0 1 0 1) 0 1) by (split; rewrite ?EX, ?EY, ?CX, ?CY; lia).
    specialize (P IN). replace (vabs1 (mkV 1 2 3)) with 6 in P. 2:{ unfold vabs1; cbn. rewrite !Rabs_right by lra. lra. }
    exact P.
Qed.
