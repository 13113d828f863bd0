(** Model of pytracer/texture/texture/__init__.py, texture/texturemap/__init__.py, the noise functions of
    texture/utility.py and data/noise.py.  Floats are reals; Python ints (INT = int) are Z.  Texture values are
    Spectrum (three channels, [vec]); a FLOAT texture behaves like one channel. *)
From Coq Require Import String.
From Coq Require Import Reals List ZArith Bool.
From Verif Require Import Base M_Python M_Geometry M_Transform M_Utility M_Film M_Shapes M_Spectrum.
Import ListNotations.
Open Scope R_scope.

(** ** Texture mappings (texture/texturemap/__init__.py) *)
(** [s, t, dsdx, dtdx, dsdy, dtdy], as documented at texturemap/__init__.py:28-33 *)
Record st := mkST { st_s : R; st_t : R; st_dsdx : R; st_dtdx : R; st_dsdy : R; st_dtdy : R }.
(** texturemap/__init__.py:38-52 (UVMapping2D.__call__) *)
Definition uv_map (su sv du dv : R) (g : dgeom) : st :=
  mkST (su * dg_u g + du) (sv * dg_v g + dv) (su * dg_dudx g) (sv * dg_dvdx g) (su * dg_dudy g) (sv * dg_dvdy g).
(** texturemap/__init__.py:59-68 (SphericalMapping2D.__sphere).  A point mapped to the origin (NaN) is outside the domain. *)
Definition sphere_st (w2t : transform) (p : vec) : R * R :=
  let v := normalize (vsub (t_point w2t p) vzero) in (spherical_theta v * (1 / PI), spherical_phi v * (1 / (2 * PI))).
(** texturemap/__init__.py:80-83, 88-91: the correction of a difference of t *)
Definition wrap_diff (d : R) : R := if Rltb (1 / 2) d then 1 - d else if Rltb d (- (1 / 2)) then - (d + 1) else d.
(** texturemap/__init__.py:70-93 (SphericalMapping2D.__call__); note line 87 subtracts s from ty *)
Definition spherical_map (w2t : transform) (g : dgeom) : st :=
  let '(s, t) := sphere_st w2t (dg_p g) in
  let delta := 1 / 10 in
  let '(sx, tx) := sphere_st w2t (vadd (dg_p g) (vscale delta (dg_dpdx g))) in
  let dsdx := (sx - s) / delta in let dtdx := wrap_diff ((tx - t) / delta) in
  let '(sy, ty) := sphere_st w2t (vadd (dg_p g) (vscale delta (dg_dpdy g))) in
  let dsdy := (sy - s) / delta in let dtdy := wrap_diff ((ty - s) / delta) in
  mkST s t dsdx dtdx dsdy dtdy.
(** texturemap/__init__.py:100-107 (CylindricalMapping2D.__cylinder): the class has no attribute arctan2 *)
Definition cylinder_st (w2t : transform) (p : vec) : res (R * R) :=
  let v := normalize (t_point w2t p) in
  py_attr cylindrical_names "arctan2"%string (Ok ((PI + arctan2 (vy v) (vx v)) * (1 / (2 * PI)), vz v)).
(** texturemap/__init__.py:109-132 (CylindricalMapping2D.__call__): the first line calls __cylinder *)
Definition cylindrical_map (w2t : transform) (g : dgeom) : res st :=
  do a <- cylinder_st w2t (dg_p g); Ok (mkST (fst a) (snd a) 0 0 0 0).
(** texturemap/__init__.py:135-149 (PlannarMapping2D.__call__) *)
Definition planar_map (vs vt : vec) (ds dt : R) (g : dgeom) : st :=
  let v := vsub (dg_p g) vzero in
  mkST (ds + vdot v vs) (dt + vdot v vt) (vdot (dg_dpdx g) vs) (vdot (dg_dpdx g) vt) (vdot (dg_dpdy g) vs) (vdot (dg_dpdy g) vt).
(** texturemap/__init__.py:175-180 (IdentityMapping3D.__call__) *)
Definition identity_map3 (w2t : transform) (g : dgeom) : vec * vec * vec :=
  (t_point w2t (dg_p g), t_vector w2t (dg_dpdx g), t_vector w2t (dg_dpdy g)).

(** ** Basic textures (texture/texture/__init__.py) *)
Definition tex := dgeom -> vec.
(** texture/__init__.py:41-46 (ConstantTexture) *)
Definition constant_tex (v : vec) : tex := fun _ => v.
(** texture/__init__.py:49-61 (ScaleTexture) *)
Definition scale_tex (t1 t2 : tex) : tex := fun g => vmap2 Rmult (t1 g) (t2 g).
(** texture/__init__.py:64-82 (MixTexture); [amt] is a FLOAT texture *)
Definition mix_tex (t1 t2 : tex) (amt : dgeom -> R) : tex := fun g =>
  let t := amt g in vadd (vscale (1 - t) (t1 g)) (vscale t (t2 g)).
(** texture/__init__.py:85-104 (BilerpTexture) *)
Definition bilerp_tex (m : dgeom -> st) (v00 v01 v10 v11 : vec) : tex := fun g =>
  let s := st_s (m g) in let t := st_t (m g) in
  vadd (vadd (vadd (vscale ((1 - s) * (1 - t)) v00) (vscale ((1 - s) * t) v01)) (vscale ((1 - t) * s) v10)) (vscale (s * t) v11).
(** texture/__init__.py:107-116 (UVTexture); Spectrum.from_rgb (spectral/spectrum.py:594-595) keeps the three numbers *)
Definition uv_tex (m : dgeom -> st) : tex := fun g =>
  let s := st_s (m g) in let t := st_t (m g) in mkV (s - IZR (ftoi s)) (t - IZR (ftoi t)) 0.
(** texture/__init__.py:148-152, 162-166 *)
Definition check2 (t1 t2 : tex) (s t : R) (g : dgeom) : vec :=
  if ((ftoi s + ftoi t) mod 2 =? 0)%Z then t1 g else t2 g.
(** texture/__init__.py:169: the function named in the comment *)
Definition bump_int (x : R) : R := IZR (ftoi (x / 2)) + 2 * pmax (x / 2 - IZR (ftoi (x / 2)) - 1 / 2) 0.
(** texture/__init__.py:170-175 (si, ti): numpy division, 0/0 is NaN *)
Definition box_frac (x0 x1 d : R) : E := edivz false (bump_int x1 - bump_int x0) (2 * d).
(** texture/__init__.py:176-178 *)
Definition area_sq (si ti : E) (ds dt : R) : E :=
  if Rltb 1 ds || Rltb 1 dt then Fin (1 / 2) else esub (emul si ti) (emul (emul (Fin 2) si) ti).
(** texture/__init__.py:179: 1 - a * tex1 + a * tex2, per channel (the parenthesis is as in the code) *)
Definition aa_value (a : E) (x y : R) : E := eadd (esub (Fin 1) (emul a (Fin x))) (emul a (Fin y)).
(** texture/__init__.py:119-179 (Chekcerboard2DTexture); [aa]: method is CLOSEDFORM *)
Definition checker2 (aa : bool) (m : dgeom -> st) (t1 t2 : tex) (g : dgeom) : V3 E :=
  let q := m g in let s := st_s q in let t := st_t q in
  if negb aa then vmap Fin (check2 t1 t2 s t g)
  else
    let ds := pmax (Rabs (st_dsdx q)) (Rabs (st_dsdy q)) in
    let dt := pmax (Rabs (st_dtdx q)) (Rabs (st_dtdy q)) in
    let s0 := s - ds in let s1 := s + ds in let t0 := t - dt in let t1' := t + dt in
    if (ftoi s0 =? ftoi s1)%Z && (ftoi t0 =? ftoi t1')%Z then vmap Fin (check2 t1 t2 s t g)
    else
      let a := area_sq (box_frac s0 s1 ds) (box_frac t0 t1' dt) ds dt in
      vmap2 (aa_value a) (t1 g) (t2 g).
(** texture/__init__.py:182-196 (Checkboard3DTexture) *)
Definition checker3 (m : dgeom -> vec * vec * vec) (t1 t2 : tex) : tex := fun g =>
  let p := fst (fst (m g)) in
  if ((ftoi (vx p) + ftoi (vy p) + ftoi (vz p)) mod 2 =? 0)%Z then t1 g else t2 g.
(** texture/__init__.py:199-232 (DotsTexture): noise takes one argument, the first test calls it with two *)
Definition dots_tex (m : dgeom -> st) (inside outside : tex) (g : dgeom) : res vec := py_call 1 0 2 (Ok (outside g)).

(** ** Noise (texture/utility.py, data/noise.py) *)
(** data/noise.py:13-40 *)
Definition NOISE_PERM : list Z := ([
   151; 160; 137; 91; 90; 15; 131; 13; 201; 95; 96; 53; 194; 233; 7; 225; 140; 36; 103; 30; 69; 142; 8; 99;
   37; 240; 21; 10; 23; 190; 6; 148; 247; 120; 234; 75; 0; 26; 197; 62; 94; 252; 219; 203; 117; 35; 11; 32;
   57; 177; 33; 88; 237; 149; 56; 87; 174; 20; 125; 136; 171; 168; 68; 175; 74; 165; 71; 134; 139; 48; 27; 166;
   77; 146; 158; 231; 83; 111; 229; 122; 60; 211; 133; 230; 220; 105; 92; 41; 55; 46; 245; 40; 244; 102; 143; 54;
   65; 25; 63; 161; 1; 216; 80; 73; 209; 76; 132; 187; 208; 89; 18; 169; 200; 196; 135; 130; 116; 188; 159; 86;
   164; 100; 109; 198; 173; 186; 3; 64; 52; 217; 226; 250; 124; 123; 5; 202; 38; 147; 118; 126; 255; 82; 85; 212;
   207; 206; 59; 227; 47; 16; 58; 17; 182; 189; 28; 42; 223; 183; 170; 213; 119; 248; 152; 2; 44; 154; 163; 70;
   221; 153; 101; 155; 167; 43; 172; 9; 129; 22; 39; 253; 19; 98; 108; 110; 79; 113; 224; 232; 178; 185; 112; 104;
   218; 246; 97; 228; 251; 34; 242; 193; 238; 210; 144; 12; 191; 179; 162; 241; 81; 51; 145; 235; 249; 14; 239; 107;
   49; 192; 214; 31; 181; 199; 106; 157; 184; 84; 204; 176; 115; 121; 50; 45; 127; 4; 150; 254; 138; 236; 205; 93;
   222; 114; 67; 29; 24; 72; 243; 141; 128; 195; 78; 66; 215; 61; 156; 180; 151; 160; 137; 91; 90; 15; 131; 13;
   201; 95; 96; 53; 194; 233; 7; 225; 140; 36; 103; 30; 69; 142; 8; 99; 37; 240; 21; 10; 23; 190; 6; 148;
   247; 120; 234; 75; 0; 26; 197; 62; 94; 252; 219; 203; 117; 35; 11; 32; 57; 177; 33; 88; 237; 149; 56; 87;
   174; 20; 125; 136; 171; 168; 68; 175; 74; 165; 71; 134; 139; 48; 27; 166; 77; 146; 158; 231; 83; 111; 229; 122;
   60; 211; 133; 230; 220; 105; 92; 41; 55; 46; 245; 40; 244; 102; 143; 54; 65; 25; 63; 161; 1; 216; 80; 73;
   209; 76; 132; 187; 208; 89; 18; 169; 200; 196; 135; 130; 116; 188; 159; 86; 164; 100; 109; 198; 173; 186; 3; 64;
   52; 217; 226; 250; 124; 123; 5; 202; 38; 147; 118; 126; 255; 82; 85; 212; 207; 206; 59; 227; 47; 16; 58; 17;
   182; 189; 28; 42; 223; 183; 170; 213; 119; 248; 152; 2; 44; 154; 163; 70; 221; 153; 101; 155; 167; 43; 172; 9;
   129; 22; 39; 253; 19; 98; 108; 110; 79; 113; 224; 232; 178; 185; 112; 104; 218; 246; 97; 228; 251; 34; 242; 193;
   238; 210; 144; 12; 191; 179; 162; 241; 81; 51; 145; 235; 249; 14; 239; 107; 49; 192; 214; 31; 181; 199; 106; 157;
   184; 84; 204; 176; 115; 121; 50; 45; 127; 4; 150; 254; 138; 236; 205; 93; 222; 114; 67; 29; 24; 72; 243; 141;
   128; 195; 78; 66; 215; 61; 156; 180
  ])%Z.
(** data/noise.py:11 *)
Definition NOISE_PERM_SIZE : Z := 256%Z.
(** texture/utility.py:43-50 (smooth_step) *)
Definition smooth_step (lo hi val : R) : R := let v := clip val lo hi in v * v * (3 - 2 * v).
(** texture/utility.py:104-114 (_grad) *)
Definition grad (x y z : Z) (dx dy dz : R) : res R :=
  do a <- get1 NOISE_PERM x; do b <- get1 NOISE_PERM (a + y)%Z; do c <- get1 NOISE_PERM (b + z)%Z;
  let h := Z.land c 15 in
  let u := if (h <? 8)%Z || (h =? 12)%Z || (h =? 13)%Z then dx else dy in
  let v := if (h <? 4)%Z || (h =? 12)%Z || (h =? 13)%Z then dy else dz in
  let u := if negb (Z.land h 1 =? 0)%Z then -1 else u in
  let v := if negb (Z.land h 2 =? 0)%Z then - v else v in
  Ok (u + v).
(** texture/utility.py:155-157 *)
Definition noise_wt (d : R) : R := d * d * d * (10 - 15 * d + 6 * d * d).
(** texture/utility.py:121-164 (noise); note line 163 blends x01, x11 with wz *)
Definition noise (p : vec) : res R :=
  let xi := ftoi (vx p) in let yi := ftoi (vy p) in let zi := ftoi (vz p) in
  let dx := vx p - IZR xi in let dy := vy p - IZR yi in let dz := vz p - IZR zi in
  let xi := Z.land xi (NOISE_PERM_SIZE - 1) in let yi := Z.land yi (NOISE_PERM_SIZE - 1) in
  let zi := Z.land zi (NOISE_PERM_SIZE - 1) in
  do w000 <- grad xi yi zi dx dy dz;
  do w100 <- grad (xi + 1) yi zi (dx - 1) dy dz;
  do w010 <- grad xi (yi + 1) zi dx (dy - 1) dz;
  do w110 <- grad (xi + 1) (yi + 1) zi (dx - 1) (dy - 1) dz;
  do w001 <- grad xi yi (zi + 1) dx dy (dz - 1);
  do w101 <- grad (xi + 1) yi (zi + 1) (dx - 1) dy (dz - 1);
  do w011 <- grad xi (yi + 1) (zi + 1) dx (dy - 1) (dz - 1);
  do w111 <- grad (xi + 1) (yi + 1) (zi + 1) (dx - 1) (dy - 1) (dz - 1);
  let wx := noise_wt dx in let wy := noise_wt dy in let wz := noise_wt dz in
  let x00 := M_Utility.lerp wx w000 w100 in let x10 := M_Utility.lerp wx w010 w110 in
  let x01 := M_Utility.lerp wx w001 w101 in let x11 := M_Utility.lerp wx w011 w111 in
  let y0 := M_Utility.lerp wy x00 x10 in let y1 := M_Utility.lerp wz x01 x11 in
  Ok (M_Utility.lerp wz y0 y1).
(** texture/utility.py:60-62, 85-87: the number of octaves, whole part and fraction; log2(0) is -inf, so without
    differentials it is [max_octaves] *)
Definition octaves_of (dpdx dpdy : vec) (max_octaves : Z) : R :=
  let s2 := pmax (sq_length dpdx) (sq_length dpdy) in
  if Reqb s2 0 then IZR max_octaves else pmin (IZR max_octaves) (1 - / 2 * log2R s2).
(** texture/utility.py:53-75 (FBm): `sum += ...` in the loop reads an unassigned local *)
Definition fbm (p dpdx dpdy : vec) (omega : R) (max_octaves : Z) : res R :=
  let foct := octaves_of dpdx dpdy max_octaves in
  let octaves := ftoi foct in
  if (0 <? octaves)%Z then Err UnboundLocalError
  else do n <- noise p; Ok (0 + 1 * smooth_step (3 / 10) (7 / 10) (foct - IZR octaves) * n).
(** texture/utility.py:90-96 (the loop of turbulence): state (s, l, o) *)
Fixpoint turb_loop (p : vec) (omega : R) (n : nat) (slo : R * R * R) : res (R * R * R) :=
  match n with
  | O => Ok slo
  | S n => let '(s, l, o) := slo in
      do x <- noise (vscale l p); turb_loop p omega n (s + o * Rabs x, l * (199 / 100), o * omega)
  end.
(** texture/utility.py:78-100 (turbulence) *)
Definition turbulence (p dpdx dpdy : vec) (omega : R) (max_octaves : Z) : res R :=
  let foct := octaves_of dpdx dpdy max_octaves in
  let octaves := ftoi foct in
  do q <- turb_loop p omega (Z.to_nat octaves) (0, 1, 1);
  let '(s, l, o) := q in
  do x <- noise (vscale l p);
  Ok (s + o * smooth_step (3 / 10) (7 / 10) (foct - IZR octaves) * Rabs x).

(** ** Procedural textures *)
(** texture/__init__.py:235-249 (FBmTexture) *)
Definition fbm_tex (octaves : Z) (omega : R) (m : dgeom -> vec * vec * vec) (g : dgeom) : res R :=
  let '(p, dpdx, dpdy) := m g in fbm p dpdx dpdy omega octaves.
(** texture/__init__.py:252-266 (WrinkledTexture) *)
Definition wrinkled_tex (octaves : Z) (omega : R) (m : dgeom -> vec * vec * vec) (g : dgeom) : res R :=
  let '(p, dpdx, dpdy) := m g in turbulence p dpdx dpdy omega octaves.
(** texture/__init__.py:269-285 (WindyTexture) *)
Definition windy_tex (m : dgeom -> vec * vec * vec) (g : dgeom) : res R :=
  let '(p, dpdx, dpdy) := m g in
  let k := 1 / 10 in
  do wind <- fbm (vscale k p) (vscale k dpdx) (vscale k dpdy) (1 / 2) 3;
  do wave <- fbm p dpdx dpdy (1 / 2) 6;
  Ok (Rabs wind * wave).
(** Python slicing l[a:b] of a list of length n: the number of elements selected *)
Definition py_slice_len (n a b : Z) : Z :=
  let fix1 i := if (i <? 0)%Z then Z.max 0 (i + n) else Z.min i n in Z.max 0 (fix1 b - fix1 a).
(** spectral/spectrum.py:556-557, 594-595: numpy.full(3, rows) of [n] rows of three numbers fails unless n = 1 *)
Definition rgb_of_rows (n : Z) : res unit := if (n =? 1)%Z then Ok tt else Err ValueError.
(** texture/__init__.py:288-332 (MarbleTexture), up to the construction of the control colours (318-321); the
    spline has 9 rows (295-297) and spline_num is 27 (298).  The value (323-332) is never reached. *)
Definition marble_tex (octaves : Z) (omega scale var : R) (m : dgeom -> vec * vec * vec) (g : dgeom) : res unit :=
  let '(p0, dpdx, dpdy) := m g in
  let p := vscale scale p0 in
  let k := 1 / 10 in
  do n <- fbm p (vscale scale dpdx) (vscale scale dpdy) omega octaves;
  let marble := vy p + var * n in
  do wind <- fbm (vscale k p) (vscale k dpdx) (vscale k dpdy) (1 / 2) 3;
  do wave <- fbm p dpdx dpdy (1 / 2) 6;
  let t := 1 / 2 * (1 / 2) * sin marble in
  let fst := ftoi (t * 27 - 3) in
  do c0 <- rgb_of_rows (py_slice_len 9 fst (fst + 3));
  do c1 <- rgb_of_rows (py_slice_len 9 (fst + 1) (fst + 4));
  do c2 <- rgb_of_rows (py_slice_len 9 (fst + 2) (fst + 5));
  do c3 <- rgb_of_rows (py_slice_len 9 (fst + 3) (fst + 6));
  Ok tt.
