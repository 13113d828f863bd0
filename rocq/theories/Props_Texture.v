(** Property theorems C56-C58, C137-C153 (textures, mip maps, noise).  Vocabulary: S_Texture.v; one colour channel
    for images, three for procedural textures. *)
From Coq Require Import Reals List ZArith Bool Lra Lia.
From Coquelicot Require Import Coquelicot.
From Verif Require Import Base M_Geometry M_Transform M_Utility M_Film M_Shapes M_Texture M_MipMap S_Texture.
From Verif Require Import P_Transform P_Transform2 P_Film P_Utility P_MipMap1 P_MipMap2 P_MipMap3 P_MipMap4 P_MipMap5 P_MipMap6 P_Texture1 P_Texture2.
Import ListNotations.
Open Scope R_scope.

(** ** C56: texel access is total; what each wrap mode returns *)
Theorem C56_repeat (l : image) (r c s t : Z) : shaped l r c -> texel REPEAT l s t = Ok (pixel l (s mod r) (t mod c)).
Proof. intros H. exact (texel_ok REPEAT l r c s t H). Qed.
Print Assumptions C56_repeat.
Theorem C56_repeat_periodic (l : image) (r c s t i j : Z) : shaped l r c -> texel REPEAT l (s + i * r) (t + j * c) = texel REPEAT l s t.
Proof. intros H. rewrite !(C56_repeat l r c) by exact H. now rewrite !Z_mod_plus_full. Qed.
Print Assumptions C56_repeat_periodic.
Theorem C56_clamp (l : image) (r c s t : Z) : shaped l r c ->
  texel CLAMP l s t = Ok (pixel l (Z.max 0 (Z.min s (r - 1))) (Z.max 0 (Z.min t (c - 1)))).
Proof. intros H. rewrite (texel_ok CLAMP l r c s t H). cbn. destruct H as (R & C & _). unfold zclip. do 2 f_equal; lia. Qed.
Print Assumptions C56_clamp.
Theorem C56_black (l : image) (r c s t : Z) : shaped l r c ->
  ((0 <= s < r /\ 0 <= t < c)%Z -> texel BLACK l s t = Ok (pixel l s t)) /\
  (~ (0 <= s < r /\ 0 <= t < c)%Z -> texel BLACK l s t = Ok 0).
Proof.
  intros H. rewrite (texel_ok BLACK l r c s t H). cbn. destruct (_ || _) eqn:Q; split; intros X; try reflexivity; exfalso.
  - repeat (apply orb_true_iff in Q as [Q|Q]); lia.
  - repeat (apply orb_false_iff in Q as [Q ?]). apply X. lia.
Qed.
Print Assumptions C56_black.
Example C56_ex : shaped [[1; 2]; [3; 4]] 2 2. Proof. repeat constructor. Qed.

(** ** C57: every lookup succeeds and stays in the range of the image *)
Theorem C57_lookup_in_range (w : wrap) (tri : bool) (an : R) (sp : bool) (img : image) (r c : Z) (lo hi : R) :
  power_of_two r -> power_of_two c -> shaped img r c -> within img r c lo hi -> (w = BLACK -> lo <= 0 <= hi) ->
  exists m, mip_make w tri an sp img = Ok m /\
    (forall s t width, exists x, look_up3 m s t width = Ok x /\ lo <= x <= hi) /\
    (tri = true -> forall s t a0 b0 a1 b1, exists x, look_up6 m s t a0 b0 a1 b1 = Ok x /\ lo <= x <= hi).
Proof.
  intros (a & A & ->) (b & B & ->) Sh Wi Bl. destruct (make_pow w tri an sp img a b A B Sh) as (p & HM & G).
  assert (OB : okb w lo hi) by (destruct w; cbn; auto).
  eexists. split; [exact HM|]. split; intros.
  - exact (look_up3_within G s t width lo hi Wi OB).
  - exact (look_up6_tri G s t a0 b0 a1 b1 lo hi H Wi OB).
Qed.
Print Assumptions C57_lookup_in_range.
(** hence a constant image looks constant at every position and filter width (REPEAT and CLAMP) *)
Theorem C57_constant (w : wrap) (tri : bool) (an : R) (sp : bool) (img : image) (r c : Z) (v : R) :
  power_of_two r -> power_of_two c -> shaped img r c -> w <> BLACK ->
  (forall i j, (0 <= i < r)%Z -> (0 <= j < c)%Z -> pixel img i j = v) ->
  exists m, mip_make w tri an sp img = Ok m /\ forall s t width, look_up3 m s t width = Ok v.
Proof.
  intros HR HC Sh W Hv.
  destruct (C57_lookup_in_range w tri an sp img r c v v HR HC Sh) as (m & HM & L & _).
  - intros i j Hi Hj. rewrite Hv by assumption. lra.
  - intros ->. congruence.
  - exists m. split; [exact HM|]. intros s t width. destruct (L s t width) as (x & -> & X). f_equal. lra.
Qed.
Print Assumptions C57_constant.
Example C57_ex : power_of_two 2 /\ shaped [[1; 2]; [3; 4]] 2 2 /\ within [[1; 2]; [3; 4]] 2 2 1 4.
Proof.
  split; [exists 1%Z; split; [lia|reflexivity]|]. split; [repeat constructor|].
  intros i j Hi Hj. assert (Ei : i = 0%Z \/ i = 1%Z) by lia. assert (Ej : j = 0%Z \/ j = 1%Z) by lia.
  destruct Ei as [-> | ->], Ej as [-> | ->]; unfold pixel; change (Z.to_nat 0) with 0%nat; change (Z.to_nat 1) with 1%nat; cbn [nth]; lra.
Qed.

(** ** C58: combining textures *)
Theorem C58_constant_scale (v : vec) (t1 t2 : tex) (g : dgeom) :
  constant_tex v g = v /\ vx (scale_tex t1 t2 g) = vx (t1 g) * vx (t2 g) /\ vy (scale_tex t1 t2 g) = vy (t1 g) * vy (t2 g) /\
  vz (scale_tex t1 t2 g) = vz (t1 g) * vz (t2 g).
Proof. repeat split. Qed.
Print Assumptions C58_constant_scale.
Theorem C58_mix (t1 t2 : tex) (amt : dgeom -> R) (g : dgeom) :
  (amt g = 0 -> mix_tex t1 t2 amt g = t1 g) /\ (amt g = 1 -> mix_tex t1 t2 amt g = t2 g) /\
  (t1 g = t2 g -> mix_tex t1 t2 amt g = t1 g) /\
  (0 <= amt g <= 1 -> forall lo hi ch, (ch = vx \/ ch = vy \/ ch = vz) -> lo <= ch (t1 g) <= hi -> lo <= ch (t2 g) <= hi ->
    lo <= ch (mix_tex t1 t2 amt g) <= hi).
Proof.
  unfold mix_tex, vadd, vscale, vmap2, vmap. cbn [vx vy vz]. destruct (t1 g) as [x y z], (t2 g) as [x' y' z']. cbn [vx vy vz].
  split; [|split; [|split]].
  - intros ->. f_equal; ring.
  - intros ->. f_equal; ring.
  - intros Q. injection Q as <- <- <-. f_equal; ring.
  - intros A lo hi ch [-> | [-> | ->]]; cbn [vx vy vz]; intros B C; split; nra.
Qed.
Print Assumptions C58_mix.
Theorem C58_bilerp (m : dgeom -> st) (v00 v01 v10 v11 : vec) (g : dgeom) :
  let s := st_s (m g) in let t := st_t (m g) in let v := bilerp_tex m v00 v01 v10 v11 g in
  (s = 0 -> t = 0 -> v = v00) /\ (s = 0 -> t = 1 -> v = v01) /\ (s = 1 -> t = 0 -> v = v10) /\ (s = 1 -> t = 1 -> v = v11) /\
  (0 <= s <= 1 -> 0 <= t <= 1 -> forall lo hi ch, (ch = vx \/ ch = vy \/ ch = vz) ->
    lo <= ch v00 <= hi -> lo <= ch v01 <= hi -> lo <= ch v10 <= hi -> lo <= ch v11 <= hi -> lo <= ch v <= hi).
Proof.
  unfold bilerp_tex, vadd, vscale, vmap2, vmap. cbn [vx vy vz]. destruct (m g) as [s t]. cbn [st_s st_t].
  destruct v00 as [a0 a1 a2], v01 as [b0 b1 b2], v10 as [c0 c1 c2], v11 as [d0 d1 d2]. cbn [vx vy vz].
  repeat split; try (intros -> ->; f_equal; ring).
  - destruct H1 as [-> | [-> | ->]]; cbn [vx vy vz] in *;
    [set (p := a0) in *; set (q := b0) in *; set (u := c0) in *; set (w := d0) in *
    |set (p := a1) in *; set (q := b1) in *; set (u := c1) in *; set (w := d1) in *
    |set (p := a2) in *; set (q := b2) in *; set (u := c2) in *; set (w := d2) in *];
    (assert (lo <= (1 - t) * p + t * q) by nra; assert (lo <= (1 - t) * u + t * w) by nra;
     replace ((1 - s) * (1 - t) * p + (1 - s) * t * q + (1 - t) * s * u + s * t * w) with ((1 - s) * ((1 - t) * p + t * q) + s * ((1 - t) * u + t * w)) by ring; nra).
  - destruct H1 as [-> | [-> | ->]]; cbn [vx vy vz] in *;
    [set (p := a0) in *; set (q := b0) in *; set (u := c0) in *; set (w := d0) in *
    |set (p := a1) in *; set (q := b1) in *; set (u := c1) in *; set (w := d1) in *
    |set (p := a2) in *; set (q := b2) in *; set (u := c2) in *; set (w := d2) in *];
    (assert ((1 - t) * p + t * q <= hi) by nra; assert ((1 - t) * u + t * w <= hi) by nra;
     replace ((1 - s) * (1 - t) * p + (1 - s) * t * q + (1 - t) * s * u + s * t * w) with ((1 - s) * ((1 - t) * p + t * q) + s * ((1 - t) * u + t * w)) by ring; nra).
Qed.
Print Assumptions C58_bilerp.
(** the UV texture shows the fractional parts *)
Theorem C58_uv (m : dgeom -> st) (g : dgeom) : let v := uv_tex m g in
  0 <= vx v < 1 /\ 0 <= vy v < 1 /\ vz v = 0 /\ exists i j : Z, st_s (m g) = IZR i + vx v /\ st_t (m g) = IZR j + vy v.
Proof.
  unfold uv_tex, ftoi. cbv zeta. cbn [vx vy vz]. destruct (Zfloor_spec (st_s (m g))), (Zfloor_spec (st_t (m g))).
  split; [lra|]. split; [lra|]. split; [reflexivity|]. exists (Zfloor (st_s (m g))), (Zfloor (st_t (m g))). split; ring.
Qed.
Print Assumptions C58_uv.

(** ** C137: checkerboards: in the cell (i, j), the first texture iff i + j is even *)
Theorem C137_point_sampled (m : dgeom -> st) (t1 t2 : tex) (g : dgeom) (i j : Z) :
  IZR i <= st_s (m g) < IZR i + 1 -> IZR j <= st_t (m g) < IZR j + 1 ->
  checker2 false m t1 t2 g = vmap Fin (if Z.even (i + j) then t1 g else t2 g).
Proof.
  intros S T. unfold checker2. cbn [negb]. cbv zeta. unfold check2, ftoi. rewrite (Zfloor_unique _ i S), (Zfloor_unique _ j T).
  now rewrite parity_b.
Qed.
Print Assumptions C137_point_sampled.
(** with antialiasing the same holds if the filter footprint lies inside the cell *)
Theorem C137_inside_cell (m : dgeom -> st) (t1 t2 : tex) (g : dgeom) (i j : Z) :
  let q := m g in let ds := Rmax (Rabs (st_dsdx q)) (Rabs (st_dsdy q)) in let dt := Rmax (Rabs (st_dtdx q)) (Rabs (st_dtdy q)) in
  IZR i <= st_s q - ds -> st_s q + ds < IZR i + 1 -> IZR j <= st_t q - dt -> st_t q + dt < IZR j + 1 ->
  checker2 true m t1 t2 g = vmap Fin (if Z.even (i + j) then t1 g else t2 g).
Proof.
  intros q ds dt A B C D. unfold checker2. cbn [negb]. cbv zeta. fold q.
  assert (PM : forall x y, pmax x y = Rmax x y) by (intros; unfold pmax, Rmax; destruct (Rltb x y) eqn:Q; Rb; destruct Rle_dec; lra).
  rewrite !PM. fold ds dt.
  assert (0 <= ds) by (eapply Rle_trans; [apply Rabs_pos|apply Rmax_l]). assert (0 <= dt) by (eapply Rle_trans; [apply Rabs_pos|apply Rmax_l]).
  unfold ftoi. rewrite (Zfloor_unique (st_s q - ds) i), (Zfloor_unique (st_s q + ds) i), (Zfloor_unique (st_t q - dt) j), (Zfloor_unique (st_t q + dt) j) by lra.
  rewrite !Z.eqb_refl. cbn [andb]. unfold check2, ftoi. rewrite (Zfloor_unique (st_s q) i), (Zfloor_unique (st_t q) j) by lra. now rewrite parity_b.
Qed.
Print Assumptions C137_inside_cell.
Theorem C137_solid (m : dgeom -> vec * vec * vec) (t1 t2 : tex) (g : dgeom) (i j k : Z) : let p := fst (fst (m g)) in
  IZR i <= vx p < IZR i + 1 -> IZR j <= vy p < IZR j + 1 -> IZR k <= vz p < IZR k + 1 ->
  checker3 m t1 t2 g = if Z.even (i + j + k) then t1 g else t2 g.
Proof.
  intros p A B C. unfold checker3. cbv zeta. fold p. unfold ftoi. rewrite (Zfloor_unique _ i A), (Zfloor_unique _ j B), (Zfloor_unique _ k C).
  now rewrite parity_b.
Qed.
Print Assumptions C137_solid.
Example C137_ex : IZR 3 <= 3.5 < IZR 3 + 1. Proof. lra. Qed.

(** ** C138: box-filtered antialiasing.  Refuted: two textures with the same value c give 1, whatever c is *)
Theorem C138_equal_textures_refuted (m : dgeom -> st) (c : R) (g : dgeom) :
  let q := m g in let ds := Rmax (Rabs (st_dsdx q)) (Rabs (st_dsdy q)) in let dt := Rmax (Rabs (st_dtdx q)) (Rabs (st_dtdy q)) in
  0 < ds -> 0 < dt -> Zfloor (st_s q - ds) <> Zfloor (st_s q + ds) ->
  checker2 true m (constant_tex (mkV c c c)) (constant_tex (mkV c c c)) g = mkV (Fin 1) (Fin 1) (Fin 1).
Proof.
  intros q ds dt A B C. unfold checker2. cbn [negb]. cbv zeta. fold q.
  assert (PM : forall x y, pmax x y = Rmax x y) by (intros; unfold pmax, Rmax; destruct (Rltb x y) eqn:Q; Rb; destruct Rle_dec; lra).
  rewrite !PM. fold ds dt. unfold ftoi. rewrite (proj2 (Z.eqb_neq _ _) C). cbn [andb].
  assert (F : exists a, area_sq (box_frac (st_s q - ds) (st_s q + ds) ds) (box_frac (st_t q - dt) (st_t q + dt) dt) ds dt = Fin a).
  { unfold area_sq, box_frac, edivz. destruct (Reqb (2 * ds) 0) eqn:Q1; Rb; [lra|]. destruct (Reqb (2 * dt) 0) eqn:Q2; Rb; [lra|].
    destruct (_ || _); [eexists; reflexivity|]. cbn. eexists; reflexivity. }
  destruct F as [a ->]. unfold constant_tex, vmap2, aa_value; cbn. f_equal; f_equal; ring.
Qed.
Print Assumptions C138_equal_textures_refuted.
(** refuted too: a footprint without extent in s that crosses a t-line gives NaN *)
Theorem C138_thin_footprint_refuted (m : dgeom -> st) (t1 t2 : tex) (g : dgeom) :
  let q := m g in let dt := Rmax (Rabs (st_dtdx q)) (Rabs (st_dtdy q)) in
  st_dsdx q = 0 -> st_dsdy q = 0 -> 0 < dt <= 1 -> Zfloor (st_t q - dt) <> Zfloor (st_t q + dt) ->
  checker2 true m t1 t2 g = mkV NaN NaN NaN.
Proof.
  intros q dt A A' B C. unfold checker2. cbn [negb]. cbv zeta. fold q.
  assert (PM : forall x y, pmax x y = Rmax x y) by (intros; unfold pmax, Rmax; destruct (Rltb x y) eqn:Q; Rb; destruct Rle_dec; lra).
  rewrite !PM. fold dt. rewrite A, A', Rabs_R0, Rmax_left by lra. rewrite Rminus_0_r, Rplus_0_r, Z.eqb_refl. unfold ftoi.
  rewrite (proj2 (Z.eqb_neq _ _) C). cbn [andb].
  unfold area_sq. destruct (Rltb 1 0) eqn:Q1; Rb; [lra|]. destruct (Rltb 1 dt) eqn:Q2; Rb; [lra|]. cbn [orb].
  unfold box_frac, edivz. rewrite Rmult_0_r. destruct (Reqb 0 0) eqn:Q3; Rb; [|lra].
  replace (bump_int (st_s q) - bump_int (st_s q)) with 0 by ring. destruct (Reqb 0 0) eqn:Q4; Rb; [|lra]. cbn [emul esub].
  unfold vmap2. f_equal; unfold aa_value; destruct (_ : E); reflexivity.
Qed.
Print Assumptions C138_thin_footprint_refuted.
(** what is right: the fraction computed per axis is the fraction of the footprint in odd cells *)
Theorem C138_odd_fraction_partial (x0 x1 : R) : x0 <= x1 ->
  is_RInt (fun x => if Z.odd (Zfloor x) then 1 else 0) x0 x1 (bump_int x1 - bump_int x0).
Proof. exact (bump_integral x0 x1). Qed.
Print Assumptions C138_odd_fraction_partial.

(** ** C139: contents of the levels.  Level i of a square power-of-two image: texel (p, q) is the mean of the block
    (p, q) of 2^i x 2^i texels for even i *)
Theorem C139_even_levels_partial (w : wrap) (tri : bool) (an : R) (sp : bool) (img : image) (k : Z) : (0 <= k)%Z -> shaped img (2 ^ k) (2 ^ k) ->
  exists m, mip_make w tri an sp img = Ok m /\ Z.of_nat (length (m_pyr m)) = (1 + k)%Z /\
    forall i li p q, Nat.even i = true -> nth_error (m_pyr m) i = Some li ->
      (0 <= p < 2 ^ (k - Z.of_nat i))%Z -> (0 <= q < 2 ^ (k - Z.of_nat i))%Z -> pixel li p q = block_mean img i p q.
Proof.
  intros K Sh. destruct (make_pow w tri an sp img k k K K Sh) as (p & HM & G). eexists. split; [exact HM|].
  split; [rewrite (g_len _ _ _ _ G); lia|]. intros i li a b E0 Hi Ha Hb.
  rewrite (level_blocks G i li a b) by (auto; assert (nth_error (m_pyr (mkMip w tri an p (2 ^ k) (2 ^ k))) i <> None) by congruence;
    apply nth_error_Some in H; pose proof (g_len _ _ _ _ G); lia).
  now rewrite E0.
Qed.
Print Assumptions C139_even_levels_partial.
(** refuted: for odd i it is the mean of the block (q, p): the odd levels are transposed *)
Theorem C139_odd_levels_transposed_refuted (w : wrap) (tri : bool) (an : R) (sp : bool) (img : image) (k : Z) : (0 <= k)%Z -> shaped img (2 ^ k) (2 ^ k) ->
  exists m, mip_make w tri an sp img = Ok m /\
    forall i li p q, Nat.odd i = true -> nth_error (m_pyr m) i = Some li ->
      (0 <= p < 2 ^ (k - Z.of_nat i))%Z -> (0 <= q < 2 ^ (k - Z.of_nat i))%Z -> pixel li p q = block_mean img i q p.
Proof.
  intros K Sh. destruct (make_pow w tri an sp img k k K K Sh) as (p & HM & G). eexists. split; [exact HM|].
  intros i li a b E0 Hi Ha Hb.
  rewrite (level_blocks G i li a b) by (auto; assert (nth_error (m_pyr (mkMip w tri an p (2 ^ k) (2 ^ k))) i <> None) by congruence;
    apply nth_error_Some in H; pose proof (g_len _ _ _ _ G); lia).
  rewrite <- Nat.negb_even in E0. destruct (Nat.even i); [discriminate|reflexivity].
Qed.
Print Assumptions C139_odd_levels_transposed_refuted.
Example C139_ex : block_mean [[0;0;1;1];[0;0;1;1];[2;2;3;3];[2;2;3;3]] 1 0 1 = 1 /\ block_mean [[0;0;1;1];[0;0;1;1];[2;2;3;3];[2;2;3;3]] 1 1 0 = 2.
Proof. unfold block_mean; cbn [zsum Nat.pow Nat.mul Nat.add]. unfold pixel. split; match goal with |- ?x = _ => let y := eval compute -[Rplus Rmult Rdiv Rinv pow IZR INR] in x in change x with y end; unfold Rdiv; simpl; lra. Qed.

(** ** C140: the finest level is interpolated exactly, repeated images tile, the coarsest lookup is the mean *)
Theorem C140_texel_centres (w : wrap) (tri : bool) (an : R) (sp : bool) (img : image) (r c i j : Z) (width : R) :
  power_of_two r -> power_of_two c -> shaped img r c -> (0 <= i < r)%Z -> (0 <= j < c)%Z -> Rmax width EPS * IZR (Z.max r c) < 1 ->
  exists m, mip_make w tri an sp img = Ok m /\ look_up3 m ((IZR i + / 2) / IZR r) ((IZR j + / 2) / IZR c) width = Ok (pixel img i j).
Proof.
  intros (a & A & ->) (b & B & ->) Sh Hi Hj Hw. destruct (make_pow w tri an sp img a b A B Sh) as (p & HM & G).
  eexists. split; [exact HM|]. rewrite max_pow in Hw by assumption. rewrite (fine_lookup G _ _ _ Hw). now rewrite (bil_centre _ img (2 ^ a) (2 ^ b)).
Qed.
Print Assumptions C140_texel_centres.
Theorem C140_tiling (tri : bool) (an : R) (sp : bool) (img : image) (r c i j : Z) (s t width : R) :
  power_of_two r -> power_of_two c -> shaped img r c ->
  exists m, mip_make REPEAT tri an sp img = Ok m /\ look_up3 m (s + IZR i) (t + IZR j) width = look_up3 m s t width.
Proof.
  intros (a & A & ->) (b & B & ->) Sh. destruct (make_pow REPEAT tri an sp img a b A B Sh) as (p & HM & G).
  eexists. split; [exact HM|]. now apply (look_up_period G).
Qed.
Print Assumptions C140_tiling.
Theorem C140_mean (w : wrap) (tri : bool) (an : R) (sp : bool) (img : image) (k : nat) (s t width : R) :
  shaped img (2 ^ Z.of_nat k) (2 ^ Z.of_nat k) -> w <> BLACK -> 1 <= width ->
  exists m, mip_make w tri an sp img = Ok m /\ look_up3 m s t width = Ok (block_mean img k 0 0).
Proof.
  intros Sh W Hw. destruct (make_pow w tri an sp img _ _ (Nat2Z.is_nonneg k) (Nat2Z.is_nonneg k) Sh) as (p & HM & G).
  eexists. split; [exact HM|]. destruct (coarse_lookup G s t width Hw) as (l & Hl & S1 & ->). f_equal.
  rewrite bil_one by auto. rewrite Z.max_id, Nat2Z.id in Hl.
  rewrite (level_blocks G k l 0 0) by (auto; rewrite ?Z.sub_diag; cbn; lia). now destruct (Nat.even k).
Qed.
Print Assumptions C140_mean.
Example C140_ex : Rmax 0 EPS * IZR (Z.max 4 4) < 1. Proof. rewrite Rmax_right by (unfold EPS; lra). cbn. unfold EPS. lra. Qed.

(** ** C141: with BLACK, the coarsest lookup should be the mean too.  Refuted: it is a quarter of it *)
Theorem C141_black_quarter_refuted (tri : bool) (an : R) (sp : bool) (img : image) (k : nat) (s t width : R) :
  shaped img (2 ^ Z.of_nat k) (2 ^ Z.of_nat k) -> 1 <= width ->
  exists m, mip_make BLACK tri an sp img = Ok m /\ look_up3 m s t width = Ok (/ 4 * block_mean img k 0 0).
Proof.
  intros Sh Hw. destruct (make_pow BLACK tri an sp img _ _ (Nat2Z.is_nonneg k) (Nat2Z.is_nonneg k) Sh) as (p & HM & G).
  eexists. split; [exact HM|]. destruct (coarse_lookup G s t width Hw) as (l & Hl & S1 & ->). f_equal. cbn [m_wrap].
  rewrite bil_one_black by auto. rewrite Z.max_id, Nat2Z.id in Hl.
  rewrite (level_blocks G k l 0 0) by (auto; rewrite ?Z.sub_diag; cbn; lia). now destruct (Nat.even k).
Qed.
Print Assumptions C141_black_quarter_refuted.

(** ** C142: elliptical lookups.  Refuted: every footprint with both axes positive, the smaller below 2, and no
    eccentricity clamp raises AttributeError *)
Theorem C142_elliptical_refuted (w : wrap) (an : R) (sp : bool) (img : image) (r c : Z) (s t a0 b0 a1 b1 : R) :
  power_of_two r -> power_of_two c -> shaped img r c ->
  let p := sqrt (a0 * a0 + b0 * b0) in let q := sqrt (a1 * a1 + b1 * b1) in
  0 < Rmin p q < 2 -> Rmax p q <= Rmin p q * an ->
  exists m, mip_make w false an sp img = Ok m /\ look_up6 m s t a0 b0 a1 b1 = Err AttributeError.
Proof.
  intros (a & A & ->) (b & B & ->) Sh p q M An. destruct (make_pow w false an sp img a b A B Sh) as (py & HM & G).
  eexists. split; [exact HM|]. exact (ewa_fails G s t a0 b0 a1 b1 eq_refl M An).
Qed.
Print Assumptions C142_elliptical_refuted.
(** what works: a footprint without extent gives the exact texel at texel centres *)
Theorem C142_point_footprint_partial (w : wrap) (an : R) (sp : bool) (img : image) (r c i j : Z) (a0 b0 : R) :
  power_of_two r -> power_of_two c -> shaped img r c -> (0 <= i < r)%Z -> (0 <= j < c)%Z ->
  exists m, mip_make w false an sp img = Ok m /\ look_up6 m ((IZR i + / 2) / IZR r) ((IZR j + / 2) / IZR c) a0 b0 0 0 = Ok (pixel img i j).
Proof.
  intros (a & A & ->) (b & B & ->) Sh Hi Hj. destruct (make_pow w false an sp img a b A B Sh) as (p & HM & G).
  eexists. split; [exact HM|]. rewrite (ewa_degenerate G _ _ a0 b0 eq_refl). now rewrite (bil_centre _ img (2 ^ a) (2 ^ b)).
Qed.
Print Assumptions C142_point_footprint_partial.

(** ** C143: image textures.  Refuted: evaluating one always raises *)
Theorem C143_evaluation_refuted (m : mip) (s t a0 b0 a1 b1 : R) : exists e, image_tex m s t a0 b0 a1 b1 = Err e.
Proof. unfold image_tex. destruct (look_up6 m s t a0 b0 a1 b1) as [x|e]; eexists; reflexivity. Qed.
Print Assumptions C143_evaluation_refuted.
(** a file that cannot be read does not give the announced default texture *)
Theorem C143_unreadable_refuted (mt : memtype) (cv : R -> R) (k : texinfo) : get_texture mt None cv k [] = Err AttributeError.
Proof. reflexivity. Qed.
Print Assumptions C143_unreadable_refuted.
(** images that are not square cannot be loaded *)
Theorem C143_nonsquare_refuted (mt : memtype) (img : image) (r c : Z) (cv : R -> R) (k : texinfo) : shaped img r c -> r <> c ->
  get_texture mt (Some img) cv k [] = Err IndexError.
Proof.
  intros Sh N. cbn [get_texture lookup_cache]. unfold get_texture. cbn [lookup_cache]. rewrite (shaped_rows _ _ _ Sh), (shaped_cols _ _ _ Sh). destruct (Sh) as (R & C & _).
  unfold fill. rewrite mapM_err; [reflexivity| |].
  - intros t. apply oki_mapM. intros s. apply oki_bind; [apply oki_get2|intros; exact I].
  - exists (if (r <? c)%Z then r else 0%Z). split; [apply Zrange_In; destruct (r <? c)%Z eqn:Q; lia|].
    apply mapM_err; [intros s; apply oki_bind; [apply oki_get2|intros; exact I]|]. exists (r - 1)%Z. split; [apply Zrange_In; lia|].
    rewrite (get2_out img r c); [reflexivity|exact Sh|]. destruct (r <? c)%Z eqn:Q; lia.
Qed.
Print Assumptions C143_nonsquare_refuted.
(** the cache ignores the storage type: asking for FLOAT storage of a cached RGB image returns the RGB one *)
Theorem C143_cache_type_refuted (file : option image) (cv : R -> R) (k : texinfo) (m : mip) :
  get_texture MemFloat file cv k [(k, (MemRGB, m))] = Ok ((MemRGB, m), [(k, (MemRGB, m))]).
Proof.
  unfold get_texture. cbn [lookup_cache].
  assert (H : ti_eqb k k = true).
  { unfold ti_eqb. rewrite Nat.eqb_refl, Bool.eqb_reflx. assert (RR : forall x, Reqb x x = true) by (intros; unfold Reqb; destruct Req_EM_T; congruence).
    rewrite !RR. now destruct (ti_wrap k). }
  now rewrite H.
Qed.
Print Assumptions C143_cache_type_refuted.
(** a square RGB image is loaded, and kept: asking again returns the same map and leaves the cache unchanged *)
Theorem C143_cached_partial (img : image) (n : Z) (cv : R -> R) (k : texinfo) : shaped img n n ->
  exists m cache, get_texture MemRGB (Some img) cv k [] = Ok (m, cache) /\
    forall file' cv', get_texture MemRGB file' cv' k cache = Ok (m, cache).
Proof.
  intros Sh. unfold get_texture. cbn [lookup_cache]. rewrite (shaped_rows _ _ _ Sh), (shaped_cols _ _ _ Sh). destruct (Sh) as (R & _).
  destruct (fill_ok n n (fun t s => do x <- get2 img t s; Ok (cv x)) (fun t s => cv (pixel img t s)) R R) as (conv & -> & S1 & _).
  { intros i j Hi Hj. now rewrite (get2_px img n n). }
  cbn [bind]. destruct (make_square (ti_wrap k) (ti_tri k) (ti_aniso k) true conv n S1) as (m & _ & _ & -> & _). cbn [bind].
  eexists _, _. split; [reflexivity|]. intros file' cv'. cbn [lookup_cache].
  assert (H : ti_eqb k k = true).
  { unfold ti_eqb. rewrite Nat.eqb_refl, Bool.eqb_reflx. assert (RR : forall x, Reqb x x = true) by (intros; unfold Reqb; destruct Req_EM_T; congruence).
    rewrite !RR. now destruct (ti_wrap k). }
  now rewrite H.
Qed.
Print Assumptions C143_cached_partial.

(** ** C144: resampling to powers of two *)
Theorem C144_weights (ores nres i : Z) :
  rs_weight ores nres i 0 + rs_weight ores nres i 1 + rs_weight ores nres i 2 + rs_weight ores nres i 3 = 1.
Proof. exact (weights_sum ores nres i). Qed.
Print Assumptions C144_weights.
(** square images of every size become maps of the next power of two; non-negative constants stay constant *)
Theorem C144_square (w : wrap) (tri : bool) (an : R) (sp : bool) (img : image) (n : Z) : shaped img n n ->
  exists m, mip_make w tri an sp img = Ok m /\ m_w m = next_pow_2 n /\ m_h m = next_pow_2 n /\
    (forall s t width, exists x, look_up3 m s t width = Ok x) /\
    (forall v, w <> BLACK -> 0 <= v -> (forall i j, (0 <= i < n)%Z -> (0 <= j < n)%Z -> pixel img i j = v) ->
      forall s t width, look_up3 m s t width = Ok v).
Proof.
  intros Sh. destruct (make_square w tri an sp img n Sh) as (m & l0 & k & HM & G & W & T & N & C).
  exists m. split; [exact HM|].
  assert (WH : m_w m = next_pow_2 n /\ m_h m = next_pow_2 n).
  { revert HM. unfold mip_make. rewrite (shaped_rows _ _ _ Sh), (shaped_cols _ _ _ Sh). destruct (is_pow_2 n) eqn:P.
    - cbn [andb bind]. destruct (pyramid _ _ _); cbn [bind]; [|discriminate]. intros Q; injection Q as <-. cbn.
      destruct (Sh) as (Np & _). apply is_pow_2_only in P as (j & J & ->); [|lia]. unfold next_pow_2. rewrite log2_pow, Zceil_IZR by exact J.
      unfold int_pow2. destruct (0 <=? j)%Z eqn:X; [auto|lia].
    - cbn [andb]. destruct (resample_image _ _ _); cbn [bind]; [|discriminate]. destruct (pyramid _ _ _); cbn [bind]; [|discriminate].
      intros Q; injection Q as <-. auto. }
  destruct WH as [-> ->]. refine (conj eq_refl (conj eq_refl (conj _ _))).
  - intros s t width. set (bd := 0).
    assert (HB : exists lo hi, within l0 (2 ^ k) (2 ^ k) lo hi /\ okb w lo hi).
    { destruct (g_lv _ _ _ _ G 0%nat l0 (g_0 _ _ _ _ G)) as [Sh0 _]. cbn in Sh0. destruct Sh0 as (_ & _ & L & F).
      set (S0 := fold_right (fun row acc => fold_right (fun x a => Rabs x + a) 0 row + acc) 0 l0).
      assert (Row : forall row x, In x row -> Rabs x <= fold_right (fun x a => Rabs x + a) 0 row).
      { induction row as [|y row IH]; intros x Hx; [destruct Hx|]. cbn. assert (0 <= fold_right (fun x a => Rabs x + a) 0 row).
        { clear. induction row as [|z row IH]; cbn; [lra|]. pose proof (Rabs_pos z). lra. }
        destruct Hx as [-> |Hx]; [lra|]. specialize (IH x Hx). pose proof (Rabs_pos y). lra. }
      assert (RowP : forall row, 0 <= fold_right (fun x a => Rabs x + a) 0 row).
      { induction row as [|z row IH]; cbn; [lra|]. pose proof (Rabs_pos z). lra. }
      assert (Im : forall l row, In row l -> fold_right (fun x a => Rabs x + a) 0 row <= fold_right (fun row acc => fold_right (fun x a => Rabs x + a) 0 row + acc) 0 l).
      { induction l as [|y l IH]; intros row Hr; [destruct Hr|]. cbn.
        assert (0 <= fold_right (fun row acc => fold_right (fun x a => Rabs x + a) 0 row + acc) 0 l).
        { clear -RowP. induction l as [|z l IH]; cbn; [lra|]. specialize (RowP z). lra. }
        destruct Hr as [-> |Hr]; [lra|]. specialize (IH row Hr). specialize (RowP y). lra. }
      exists (- S0), S0. assert (P0 : 0 <= S0).
      { unfold S0. clear -RowP. induction l0 as [|z l IH]; cbn; [lra|]. specialize (RowP z). lra. }
      split; [|destruct w; cbn; auto; lra].
      intros i j Hi Hj. assert (A1 : In (nth (Z.to_nat i) l0 []) l0) by (apply nth_In; lia).
      assert (A2 : In (pixel l0 i j) (nth (Z.to_nat i) l0 [])).
      { unfold pixel. apply nth_In. pose proof (proj1 (List.Forall_forall _ _) F _ A1). cbn in H. lia. }
      pose proof (Row _ _ A2). pose proof (Im _ _ A1). assert (Rabs (pixel l0 i j) <= S0) by (unfold S0; lra).
      unfold Rabs in H1. destruct Rcase_abs; lra. }
    destruct HB as (lo & hi & HW & HO). rewrite <- W in HO. destruct (look_up3_within G s t width lo hi HW HO) as (x & Hx & _). now exists x.
  - intros v NB V0 Hv s t width.
    assert (HW : within l0 (2 ^ k) (2 ^ k) v v) by (apply C; auto; intros i j Hi Hj; rewrite Hv by assumption; lra).
    assert (HO : okb (m_wrap m) v v) by (rewrite W; destruct w; cbn; auto; congruence).
    destruct (look_up3_within G s t width v v HW HO) as (x & -> & X). f_equal. lra.
Qed.
Print Assumptions C144_square.
Example C144_ex : shaped [[1;1;1];[1;1;1];[1;1;1]] 3 3. Proof. repeat constructor. Qed.
(** ** C145: images that are not square.  Refuted: unless both sides are powers of two, construction raises IndexError *)
Theorem C145_nonsquare_refuted (w : wrap) (tri : bool) (an : R) (sp : bool) (img : image) (r c : Z) : shaped img r c -> r <> c ->
  ~ (power_of_two r /\ power_of_two c) -> mip_make w tri an sp img = Err IndexError.
Proof.
  intros Sh N P. unfold mip_make. rewrite (shaped_rows _ _ _ Sh), (shaped_cols _ _ _ Sh). destruct (Sh) as (R & C & _).
  destruct (is_pow_2 r && is_pow_2 c) eqn:Q.
  - exfalso. apply P. apply andb_true_iff in Q as [Q1 Q2]. split; [destruct (is_pow_2_only r R Q1) as (j & J)|destruct (is_pow_2_only c C Q2) as (j & J)]; exists j; exact J.
  - rewrite (resample_nonsquare w sp img r c Sh N). reflexivity.
Qed.
Print Assumptions C145_nonsquare_refuted.

(** ** C146: noise is defined everywhere, bounded by 2 and has period 256 in each coordinate *)
Theorem C146_total_bounded (p : vec) : exists v, noise p = Ok v /\ -2 <= v <= 2.
Proof. exact (noise_bound p). Qed.
Print Assumptions C146_total_bounded.
Theorem C146_period (p : vec) (i j k : Z) : noise (vadd p (mkV (256 * IZR i) (256 * IZR j) (256 * IZR k))) = noise p.
Proof. exact (noise_period p i j k). Qed.
Print Assumptions C146_period.

(** ** C147: noise is 0 on the integer lattice and continuous.  Refuted *)
Theorem C147_lattice_refuted : noise (mkV 2 0 0) = Ok (-1).
Proof.
  rewrite noise_ok. cbn [vx vy vz]. replace (Zfloor 2) with 2%Z by (symmetry; apply Zfloor_unique; lra). replace (Zfloor 0) with 0%Z by (symmetry; apply Zfloor_unique; lra).
  f_equal. replace (2 - 2) with 0 by ring. rewrite Rminus_0_r. change (2 mod 256)%Z with 2%Z. change (0 mod 256)%Z with 0%Z.
  unfold cell, M_Utility.lerp. cbv zeta. rewrite wt0. change (2 + 0)%Z with 2%Z. change (0 + 0)%Z with 0%Z. replace (hash 2 0 0) with 3%Z by reflexivity.
  unfold gradv at 1; cbn. ring.
Qed.
Print Assumptions C147_lattice_refuted.
(** what holds: on the lattice it is 0 or -1 *)
Theorem C147_lattice_partial (i j k : Z) : noise (mkV (IZR i) (IZR j) (IZR k)) = Ok 0 \/ noise (mkV (IZR i) (IZR j) (IZR k)) = Ok (-1).
Proof. exact (noise_lattice i j k). Qed.
Print Assumptions C147_lattice_partial.
(** a jump across y = 1: values near 0 below, -1/8 at 1 *)
Theorem C147_discontinuous_refuted :
  (forall y, 63 / 64 <= y < 1 -> exists v, noise (mkV 0 y (/ 2)) = Ok v /\ Rabs v <= / 16) /\ noise (mkV 0 1 (/ 2)) = Ok (- / 8).
Proof. split; [exact noise_left|exact noise_right]. Qed.
Print Assumptions C147_discontinuous_refuted.

(** ** C148: turbulence (wrinkled textures) is defined, non-negative and bounded for roughness in [0, 1) *)
Theorem C148_turbulence (p dpdx dpdy : vec) (omega : R) (max_octaves : Z) : 0 <= omega < 1 ->
  exists v, turbulence p dpdx dpdy omega max_octaves = Ok v /\ 0 <= v <= 2 / (1 - omega).
Proof. exact (turbulence_ok p dpdx dpdy omega max_octaves). Qed.
Print Assumptions C148_turbulence.
Theorem C148_wrinkled (octaves : Z) (omega : R) (m : dgeom -> vec * vec * vec) (g : dgeom) : 0 <= omega < 1 ->
  exists v, wrinkled_tex octaves omega m g = Ok v /\ 0 <= v <= 2 / (1 - omega).
Proof. intros H. unfold wrinkled_tex. destruct (m g) as [[p dx] dy]. now apply turbulence_ok. Qed.
Print Assumptions C148_wrinkled.
(** smooth_step is monotone with values in [0, 1] for bounds in [0, 1] *)
Theorem C148_smooth_step (lo hi x y : R) : 0 <= lo -> lo <= hi -> hi <= 1 ->
  0 <= smooth_step lo hi x <= 1 /\ (x <= y -> smooth_step lo hi x <= smooth_step lo hi y).
Proof. intros A B C. split; [now apply smooth_range|]. now apply smooth_mono. Qed.
Print Assumptions C148_smooth_step.
Example C148_ex : 0 <= 1 / 2 < 1. Proof. lra. Qed.

(** ** C149: FBm, windy and marble textures.  Refuted: with at least one octave FBm raises; without differentials it
    raises whenever an octave is requested; windy textures then always raise and marble textures raise in all cases *)
Lemma fbm_whole (p dpdx dpdy : vec) (omega : R) (max_octaves : Z) : 1 <= octaves_of dpdx dpdy max_octaves ->
  fbm p dpdx dpdy omega max_octaves = Err UnboundLocalError.
Proof.
  intros H. unfold fbm. cbv zeta. assert (1 <= ftoi (octaves_of dpdx dpdy max_octaves))%Z by (unfold ftoi; apply Zfloor_ge; exact H).
  destruct (0 <? _)%Z eqn:Q; [reflexivity|]. apply Z.ltb_ge in Q. lia.
Qed.
Lemma octaves_whole (dpdx dpdy : vec) (n : Z) : 1 <= octaves_of dpdx dpdy n <-> (1 <= n)%Z /\ vlength dpdx <= 1 /\ vlength dpdy <= 1.
Proof.
  assert (SQ : forall v, vlength v <= 1 <-> sq_length v <= 1).
  { intros v. unfold vlength. assert (0 <= sq_length v) by (unfold sq_length; nra). split; intros Q.
    - rewrite <- (sqrt_sqrt (sq_length v)) by assumption. pose proof (sqrt_pos (sq_length v)). nra.
    - rewrite <- sqrt_1. now apply sqrt_le_1_alt. }
  rewrite !SQ. unfold octaves_of. cbv zeta. set (a := sq_length dpdx). set (b := sq_length dpdy).
  assert (A0 : 0 <= a) by (unfold a, sq_length; nra). assert (B0 : 0 <= b) by (unfold b, sq_length; nra).
  assert (PM : 0 <= pmax a b /\ (pmax a b <= 1 <-> a <= 1 /\ b <= 1)) by (unfold pmax; Rcase; lra).
  destruct PM as (P0 & PM). rewrite <- PM. clear PM SQ. set (c := pmax a b) in *.
  assert (N1 : 1 <= IZR n <-> (1 <= n)%Z) by (split; [intros Q; apply le_IZR; exact Q|intros Q; apply IZR_le in Q; exact Q]).
  destruct (Reqb c 0) eqn:Q; Rb; [rewrite N1; intuition lra|].
  assert (L2 : 0 < ln 2) by (rewrite <- ln_1; apply ln_increasing; lra).
  assert (LC : 1 <= 1 - / 2 * log2R c <-> c <= 1).
  { unfold log2R. assert (E : 1 <= 1 - / 2 * (ln c / ln 2) <-> ln c <= 0).
    { assert (X : ln c = (ln c / ln 2) * ln 2) by (field; lra). split; intros Y.
      - rewrite X. assert (ln c / ln 2 <= 0) by lra. nra.
      - assert (ln c / ln 2 <= 0) by (apply Rmult_le_reg_r with (ln 2); [lra|]; rewrite <- X; lra). lra. }
    rewrite E. rewrite <- ln_1. split; intros Y.
    - destruct (Rle_lt_dec c 1) as [|G]; [assumption|]. apply ln_increasing in G; lra.
    - destruct (Req_dec c 1) as [->|G]; [lra|]. left. apply ln_increasing; lra. }
  unfold pmin. destruct (Rltb (1 - / 2 * log2R c) (IZR n)) eqn:T; Rb; rewrite <- LC, <- N1; lra.
Qed.
(** no direction in which the footprint is longer than a noise cell, and an octave asked for *)
Theorem C149_octave_refuted (p dpdx dpdy : vec) (omega : R) (max_octaves : Z) :
  (1 <= max_octaves)%Z -> vlength dpdx <= 1 -> vlength dpdy <= 1 ->
  fbm p dpdx dpdy omega max_octaves = Err UnboundLocalError.
Proof. intros A B C. apply fbm_whole, octaves_whole. auto. Qed.
Print Assumptions C149_octave_refuted.
Theorem C149_no_differentials_refuted (octaves : Z) (omega : R) (m : dgeom -> vec * vec * vec) (g : dgeom) (p : vec) :
  m g = (p, vzero, vzero) -> (1 <= octaves)%Z ->
  fbm_tex octaves omega m g = Err UnboundLocalError /\ windy_tex m g = Err UnboundLocalError.
Proof.
  intros H O. assert (Z0 : forall k, octaves_of vzero vzero k = IZR k).
  { intros k. unfold octaves_of, pmax, sq_length, vzero. cbn [vx vy vz]. cbv zeta. match goal with |- context [Reqb ?a 0] => replace a with 0 end.
    - destruct (Reqb 0 0) eqn:Q; Rb; [reflexivity|lra].
    - destruct (Rltb _ _); ring. }
  split.
  - unfold fbm_tex. rewrite H. apply fbm_whole. rewrite Z0. apply IZR_le. lia.
  - unfold windy_tex. rewrite H. cbv zeta. replace (vscale (1 / 10) vzero) with vzero by (unfold vscale, vzero, vmap; cbn; f_equal; ring).
    rewrite fbm_whole; [reflexivity|]. rewrite Z0. lra.
Qed.
Print Assumptions C149_no_differentials_refuted.
Theorem C149_marble_refuted (octaves : Z) (omega scale var : R) (m : dgeom -> vec * vec * vec) (g : dgeom) :
  exists e, marble_tex octaves omega scale var m g = Err e.
Proof.
  unfold marble_tex. destruct (m g) as [[p0 dx] dy]. cbv zeta.
  destruct (fbm _ _ _ omega octaves) as [n|e]; [|eexists; reflexivity]. cbn [bind].
  destruct (fbm _ _ _ _ 3) as [n1|e]; [|eexists; reflexivity]. cbn [bind].
  destruct (fbm _ _ _ _ 6) as [n2|e]; [|eexists; reflexivity]. cbn [bind].
  set (t := 1 / 2 * (1 / 2) * sin _). assert (T : - / 4 <= t <= / 4).
  { unfold t. match goal with |- context [sin ?a] => pose proof (SIN_bound a) end. lra. }
  set (f := ftoi (t * 27 - 3)).
  assert (F : (-10 <= f <= 3)%Z).
  { unfold f, ftoi. split; [apply Zfloor_ge; lra|]. assert (Zfloor (t * 27 - 3) < 4)%Z by (apply Zfloor_lt; lra). lia. }
  assert (B : rgb_of_rows (py_slice_len 9 f (f + 3)) = Err ValueError).
  { assert (C : (f = -10 \/ f = -9 \/ f = -8 \/ f = -7 \/ f = -6 \/ f = -5 \/ f = -4 \/ f = -3 \/ f = -2 \/ f = -1 \/ f = 0 \/ f = 1 \/ f = 2 \/ f = 3)%Z) by lia.
    repeat (destruct C as [-> |C]; [reflexivity|]). rewrite C. reflexivity. }
  rewrite B. eexists; reflexivity.
Qed.
Print Assumptions C149_marble_refuted.
(** what works: over a footprint so large that no whole octave fits, FBm is the noise at the point faded by a weight
    between 0 and 1 (so at most the noise's own bound) *)
Theorem C149_large_footprint_partial (p dpdx dpdy : vec) (omega : R) (max_octaves : Z) : 1 < vlength dpdx \/ 1 < vlength dpdy ->
  exists x w v, noise p = Ok x /\ 0 <= w <= 1 /\ v = w * x /\ fbm p dpdx dpdy omega max_octaves = Ok v /\ -2 <= v <= 2.
Proof.
  intros H0. assert (H : octaves_of dpdx dpdy max_octaves < 1).
  { destruct (Rlt_le_dec (octaves_of dpdx dpdy max_octaves) 1) as [|G]; [assumption|]. apply octaves_whole in G. lra. }
  clear H0. unfold fbm. cbv zeta. assert (ftoi (octaves_of dpdx dpdy max_octaves) < 1)%Z by (unfold ftoi; apply Zfloor_lt; exact H).
  destruct (0 <? _)%Z eqn:Q; [apply Z.ltb_lt in Q; lia|]. destruct (noise_bound p) as (x & -> & X). cbn [bind].
  pose proof (smooth_range (3 / 10) (7 / 10) (octaves_of dpdx dpdy max_octaves - IZR (ftoi (octaves_of dpdx dpdy max_octaves))) ltac:(lra) ltac:(lra) ltac:(lra)) as W.
  set (q := smooth_step _ _ _) in *. exists x, q, (q * x). repeat split; try (f_equal; ring); try nra; lra.
Qed.
Print Assumptions C149_large_footprint_partial.
(** windy textures: wherever the footprint is longer than ten noise cells in some direction, the value is a wind strength
    times a wave, both faded noise, the wind at a tenth of the frequency; otherwise they raise *)
Lemma len_tenth (v : vec) : vlength (vscale (1 / 10) v) = vlength v / 10.
Proof.
  unfold vlength. replace (sq_length (vscale (1 / 10) v)) with ((1 / 10) * (1 / 10) * sq_length v) by (unfold sq_length, vscale, vmap; cbn [vx vy vz]; ring).
  rewrite sqrt_mult_alt by lra. rewrite sqrt_square by lra. field.
Qed.
Theorem C149_windy_partial (m : dgeom -> vec * vec * vec) (g : dgeom) (p dpdx dpdy : vec) : m g = (p, dpdx, dpdy) ->
  (10 < vlength dpdx \/ 10 < vlength dpdy ->
     exists x y a b, noise (vscale (1 / 10) p) = Ok x /\ noise p = Ok y /\ 0 <= a <= 1 /\ 0 <= b <= 1 /\ windy_tex m g = Ok (Rabs (a * x) * (b * y))) /\
  (vlength dpdx <= 10 -> vlength dpdy <= 10 -> windy_tex m g = Err UnboundLocalError).
Proof.
  intros E. unfold windy_tex. rewrite E. cbv zeta. split.
  - intros H. destruct (C149_large_footprint_partial (vscale (1 / 10) p) (vscale (1 / 10) dpdx) (vscale (1 / 10) dpdy) (1 / 2) 3) as (x & a & v & X & A & V & F & _);
      [rewrite !len_tenth; lra|]. destruct (C149_large_footprint_partial p dpdx dpdy (1 / 2) 6) as (y & b & v' & Y & B & V' & F' & _); [lra|].
    exists x, y, a, b. rewrite F. cbn [bind]. rewrite F'. cbn [bind]. subst. repeat split; auto; lra.
  - intros H1 H2. rewrite C149_octave_refuted; [reflexivity|lia|rewrite len_tenth; lra|rewrite len_tenth; lra].
Qed.
Print Assumptions C149_windy_partial.
Example C149_ex : 1 < vlength (mkV 2 0 0) /\ vlength (mkV (1/2) 0 0) <= 1.
Proof.
  unfold vlength, sq_length; cbn. replace (2 * 2 + 0 * 0 + 0 * 0) with (2 * 2) by ring.
  replace (1 / 2 * (1 / 2) + 0 * 0 + 0 * 0) with ((1/2) * (1/2)) by ring. rewrite !sqrt_square by lra. lra.
Qed.

(** ** C150: UV, planar and 3D mappings: the coordinates move by the reported differentials.  [moved g e] is the
    point one moves to by e times the x-differentials. *)
Definition moved_x (g : dgeom) (e : R) : dgeom :=
  mkDG (vadd (dg_p g) (vscale e (dg_dpdx g))) (dg_dpdu g) (dg_dpdv g) (dg_dndu g) (dg_dndv g) (dg_nn g)
    (dg_u g + e * dg_dudx g) (dg_v g + e * dg_dvdx g) (dg_dudx g) (dg_dvdx g) (dg_dudy g) (dg_dvdy g) (dg_dpdx g) (dg_dpdy g).
Definition moved_y (g : dgeom) (e : R) : dgeom :=
  mkDG (vadd (dg_p g) (vscale e (dg_dpdy g))) (dg_dpdu g) (dg_dpdv g) (dg_dndu g) (dg_dndv g) (dg_nn g)
    (dg_u g + e * dg_dudy g) (dg_v g + e * dg_dvdy g) (dg_dudx g) (dg_dvdx g) (dg_dudy g) (dg_dvdy g) (dg_dpdx g) (dg_dpdy g).
Definition follows (m : dgeom -> st) : Prop := forall g e,
  st_s (m (moved_x g e)) = st_s (m g) + e * st_dsdx (m g) /\ st_t (m (moved_x g e)) = st_t (m g) + e * st_dtdx (m g) /\
  st_s (m (moved_y g e)) = st_s (m g) + e * st_dsdy (m g) /\ st_t (m (moved_y g e)) = st_t (m g) + e * st_dtdy (m g).
Theorem C150_uv (su sv du dv : R) : follows (uv_map su sv du dv).
Proof. intros g e. unfold uv_map, moved_x, moved_y; cbn. repeat split; ring. Qed.
Print Assumptions C150_uv.
Theorem C150_planar (vs vt : vec) (ds dt : R) : follows (planar_map vs vt ds dt).
Proof. intros g e. unfold planar_map, moved_x, moved_y, vdot, vadd, vscale, vsub, vzero, vmap2, vmap; cbn. repeat split; ring. Qed.
Print Assumptions C150_planar.
Theorem C150_solid (w2t : transform) (g : dgeom) (e : R) : row3 (tm w2t) = mkV4 0 0 0 1 ->
  let '(p, dx, dy) := identity_map3 w2t g in
  fst (fst (identity_map3 w2t (moved_x g e))) = vadd p (vscale e dx) /\ fst (fst (identity_map3 w2t (moved_y g e))) = vadd p (vscale e dy).
Proof.
  intros H. unfold identity_map3, moved_x, moved_y. cbn [fst dg_p dg_dpdx dg_dpdy].
  assert (L : forall p v, t_point w2t (vadd p (vscale e v)) = vadd (t_point w2t p) (vscale e (t_vector w2t v))).
  { intros p v. rewrite !P_Transform2.t_point_affine by exact H. unfold P_Transform2.apt, t_vector, dot4, vadd, vscale, vmap2, vmap; cbn. f_equal; ring. }
  split; apply L.
Qed.
Print Assumptions C150_solid.
Example C150_ex : row3 (tm t_identity) = mkV4 0 0 0 1. Proof. reflexivity. Qed.

(** ** C151: spherical mapping: both coordinates lie in [0, 1] *)
Lemma arctan2_range y x : - PI < arctan2 y x <= PI.
Proof.
  pose proof PI_RGT_0. pose proof (atan_bound (y / x)). unfold arctan2. destruct (Rltb 0 x) eqn:Q1; Rb; [lra|].
  destruct (Rltb x 0) eqn:Q2; Rb.
  - destruct (Rleb 0 y) eqn:Q3; Rb.
    + assert (y / x <= 0). { unfold Rdiv. assert (/ x < 0) by (apply Rinv_lt_0_compat; lra). nra. }
      assert (atan (y / x) <= 0); [|lra]. destruct H1 as [L|E0]; [left; rewrite <- atan_0; now apply atan_increasing|rewrite E0, atan_0; lra].
    + assert (0 < y / x). { unfold Rdiv. assert (/ x < 0) by (apply Rinv_lt_0_compat; lra). nra. }
      assert (0 < atan (y / x)); [|lra]. rewrite <- atan_0. now apply atan_increasing.
  - destruct (Rltb 0 y); [lra|]. destruct (Rltb y 0); lra.
Qed.
Theorem C151_spherical_range (w2t : transform) (g : dgeom) :
  0 <= st_s (spherical_map w2t g) <= 1 /\ 0 < st_t (spherical_map w2t g) <= 1.
Proof.
  unfold spherical_map, sphere_st. cbv zeta. cbn [st_s st_t]. set (v := normalize _). pose proof PI_RGT_0 as P. split.
  - unfold spherical_theta. pose proof (acos_bound (clip (vz v) (-1) 1)) as [A1 A2].
    assert (0 < 1 / PI) by (apply Rdiv_lt_0_compat; lra). split; [apply Rmult_le_pos; lra|].
    apply Rle_trans with (PI * (1 / PI)); [apply Rmult_le_compat_r; lra|right; field; lra].
  - unfold spherical_phi. cbv zeta. pose proof (arctan2_range (vy v) (vx v)). assert (K : 0 < 1 / (2 * PI)) by (apply Rdiv_lt_0_compat; lra).
    assert (B : 0 < (if Rltb 0 (arctan2 (vy v) (vx v)) then arctan2 (vy v) (vx v) else arctan2 (vy v) (vx v) + 2 * PI) <= 2 * PI).
    { destruct (Rltb 0 _) eqn:Q; Rb; lra. }
    split; [apply Rmult_lt_0_compat; lra|]. apply Rle_trans with (2 * PI * (1 / (2 * PI))); [apply Rmult_le_compat_r; lra|right; field; lra].
Qed.
Print Assumptions C151_spherical_range.

(** ** C152: spherical and cylindrical mappings report how the coordinates change.  Refuted: where nothing changes
    from pixel to pixel, the reported change of t in y is a function of t - s; cylindrical mappings always raise *)
Theorem C152_spherical_refuted (w2t : transform) (g : dgeom) : dg_dpdy g = vzero ->
  st_dsdy (spherical_map w2t g) = 0 /\
  st_dtdy (spherical_map w2t g) = wrap_diff (10 * (st_t (spherical_map w2t g) - st_s (spherical_map w2t g))).
Proof.
  intros H. unfold spherical_map. destruct (sphere_st w2t (dg_p g)) as [s t] eqn:Q. destruct (sphere_st w2t (vadd (dg_p g) (vscale (1 / 10) (dg_dpdx g)))) as [sx tx].
  rewrite H. replace (vadd (dg_p g) (vscale (1 / 10) vzero)) with (dg_p g) by (destruct (dg_p g); unfold vadd, vscale, vzero, vmap2, vmap; cbn; f_equal; ring).
  rewrite Q. cbn. split; [field|f_equal; field].
Qed.
Print Assumptions C152_spherical_refuted.
Theorem C152_cylindrical_refuted (w2t : transform) (g : dgeom) : cylindrical_map w2t g = Err AttributeError.
Proof. reflexivity. Qed.
Print Assumptions C152_cylindrical_refuted.
(** what works: the x differentials are forward differences over a tenth of the footprint (t's when below one half) *)
Theorem C152_x_differences_partial (w2t : transform) (g : dgeom) :
  let a := sphere_st w2t (dg_p g) in let b := sphere_st w2t (vadd (dg_p g) (vscale (1 / 10) (dg_dpdx g))) in
  st_dsdx (spherical_map w2t g) = 10 * (fst b - fst a) /\
  (Rabs (10 * (snd b - snd a)) <= 1 / 2 -> st_dtdx (spherical_map w2t g) = 10 * (snd b - snd a)).
Proof.
  intros a b. unfold spherical_map. fold a b. destruct a as [s t], b as [sx tx]. destruct (sphere_st w2t (vadd _ (vscale _ (dg_dpdy g)))) as [sy ty]. cbn.
  split; [field|]. intros H. unfold wrap_diff. replace ((tx - t) / (1 / 10)) with (10 * (tx - t)) by field.
  unfold Rabs in H. destruct (Rltb (1 / 2) _) eqn:Q1; Rb; [destruct Rcase_abs; lra|]. destruct (Rltb _ (- (1 / 2))) eqn:Q2; Rb; [destruct Rcase_abs; lra|reflexivity].
Qed.
Print Assumptions C152_x_differences_partial.

(** ** C153: dots textures can be evaluated.  Refuted *)
Theorem C153_dots_refuted (m : dgeom -> st) (inside outside : tex) (g : dgeom) : dots_tex m inside outside g = Err TypeError.
Proof. reflexivity. Qed.
Print Assumptions C153_dots_refuted.
