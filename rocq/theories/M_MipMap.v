(** Model of the MIPMap class (pytracer/texture/utility.py:168-467) and of ImageTexture
    (pytracer/texture/texture/image.py).  One colour channel: all operations on texels are linear and per channel
    (clip is per channel too).  An image is the list of its rows; l[s, t] is row s, column t. *)
From Coq Require Import String.
From Coq Require Import Reals List ZArith Bool.
From Verif Require Import Base M_Python M_Utility M_Film.
Import ListNotations.
Open Scope R_scope.

(** texture/utility.py:168-171 *)
Inductive wrap := REPEAT | BLACK | CLAMP.
Definition image := list (list R).
(** numpy shape[0:2] *)
Definition rows (l : image) : Z := Z.of_nat (length l).
Definition cols (l : image) : Z := Z.of_nat (length (hd [] l)).
(** numpy.clip on ints *)
Definition zclip (x lo hi : Z) : Z := Z.min (Z.max x lo) hi.
(** texture/utility.py:309-323 (MIPMap.texel), on the level's array *)
Definition texel (w : wrap) (l : image) (s t : Z) : res R :=
  let u := rows l in let v := cols l in
  match w with
  | REPEAT => get2 l (s mod u) (t mod v)
  | CLAMP => get2 l (zclip s 0 (u - 1)) (zclip t 0 (v - 1))
  | BLACK => if (s <? 0)%Z || (u <=? s)%Z || (t <? 0)%Z || (v <=? t)%Z then Ok 0 else get2 l s t
  end.
Fixpoint mapM {A B} (f : A -> res B) (l : list A) : res (list B) :=
  match l with
  | [] => Ok []
  | a :: t => do b <- f a; do r <- mapM f t; Ok (b :: r)
  end.
(** an array of shape [r, c] filled by two nested loops *)
Definition fill (r c : Z) (f : Z -> Z -> res R) : res image :=
  mapM (fun i => mapM (fun j => f i j) (Zrange 0 c)) (Zrange 0 r).
(** texture/utility.py:289-301: the next coarser level; note it has shape [t_res, s_res] and is written at [t, s] *)
Definition down (w : wrap) (l : image) : res image :=
  let s_res := Z.max 1 (rows l / 2) in
  let t_res := Z.max 1 (cols l / 2) in
  fill t_res s_res (fun t s =>
    do a <- texel w l (2 * s) (2 * t); do b <- texel w l (2 * s + 1) (2 * t);
    do c <- texel w l (2 * s) (2 * t + 1); do d <- texel w l (2 * s + 1) (2 * t + 1);
    Ok (/ 4 * (a + b + c + d))).
(** texture/utility.py:285-301: level 0 and [n] coarser ones *)
Fixpoint pyramid (w : wrap) (n : nat) (l : image) : res (list image) :=
  match n with
  | O => Ok [l]
  | S n => do d <- down w l; do r <- pyramid w n d; Ok (l :: r)
  end.

(** ** Resampling to powers of two *)
(** texture/utility.py:22-40 (Lanczos) for one number, tau = 2 *)
Definition lanczos2 (x0 : R) : R :=
  let x := Rabs x0 in
  if Rltb x EPS then 1 else if Rltb 1 x then 0 else np_sinc (x * 2) * np_sinc x.
(** texture/utility.py:203-204: ctr and wts[i][0] *)
Definition rs_center (ores nres i : Z) : R := (IZR i + / 2) * IZR ores / IZR nres.
Definition rs_first (ores nres i : Z) : Z := ftoi (rs_center ores nres i - 2 + / 2).
(** texture/utility.py:205 *)
Definition rs_raw (ores nres i j : Z) : R :=
  lanczos2 ((IZR (rs_first ores nres i) + IZR j + / 2 - rs_center ores nres i) / 2).
(** texture/utility.py:193-210 (MIPMap.resample): weight j of output i, normalised (208) *)
Definition rs_weight (ores nres i j : Z) : R :=
  rs_raw ores nres i j /
  (rs_raw ores nres i 0 + rs_raw ores nres i 1 + rs_raw ores nres i 2 + rs_raw ores nres i 3).
(** texture/utility.py:249-256, 265-272: one resampled value: four taps of [src], wrapped to [0, ores); taps outside
    (BLACK) are skipped *)
Definition rs_tap (w : wrap) (ores nres : Z) (i : Z) (src : Z -> res R) : res R :=
  fold_left (fun acc j =>
    do a <- acc;
    let o := (rs_first ores nres i + j)%Z in
    let o := match w with REPEAT => (o mod ores)%Z | CLAMP => zclip o 0 (ores - 1) | BLACK => o end in
    if (0 <=? o)%Z && (o <? ores)%Z then do x <- src o; Ok (a + rs_weight ores nres i j * x) else Ok a)
    [0; 1; 2; 3]%Z (Ok 0).
(** texture/utility.py:234-279: s direction, then t direction, then clip for Spectrum.  sres = rows, tres = columns,
    but the image is read as img[t, orig_s] (256). *)
Definition resample_image (w : wrap) (spectrum : bool) (img : image) : res image :=
  let sres := rows img in let tres := cols img in
  let sp := next_pow_2 sres in let tp := next_pow_2 tres in
  do r1 <- fill tres sp (fun t s => rs_tap w sres sp s (fun o => get2 img t o));
  fill tp sp (fun t s =>
    do x <- rs_tap w tres tp t (fun o => get2 r1 o s); Ok (if spectrum then Rmax 0 x else x)).

(** ** Construction *)
Record mip := mkMip { m_wrap : wrap; m_tri : bool; m_aniso : R; m_pyr : list image; m_w : Z; m_h : Z }.
(** texture/utility.py:216-307 (MIPMap.__init__) for Spectrum types ([spectrum]: typename is Spectrum, i.e. RGBSpectrum) *)
Definition mip_make (w : wrap) (tri : bool) (aniso : R) (spectrum : bool) (img : image) : res mip :=
  let pow := is_pow_2 (rows img) && is_pow_2 (cols img) in
  do l0 <- (if pow then Ok img else resample_image w spectrum img);
  let sres := if pow then rows img else next_pow_2 (rows img) in
  let tres := if pow then cols img else next_pow_2 (cols img) in
  do pyr <- pyramid w (Z.to_nat (Ztrunc (log2R (IZR (Z.max sres tres))))) l0;
  Ok (mkMip w tri aniso pyr sres tres).
(** texture/utility.py:284-287 for typename = FLOAT: an array of floats cannot hold an image of more than one texel *)
Definition mip_make_float (img : image) : res mip :=
  if (rows img * cols img =? 1)%Z then Ok (mkMip REPEAT false 8 [] 1 1) else Err ValueError.

(** ** Lookup *)
Definition n_levels (m : mip) : Z := Z.of_nat (length (m_pyr m)).
(** texture/utility.py:337-346 (__triangle) *)
Definition triangle (m : mip) (level : Z) (s t : R) : res R :=
  let level := zclip level 0 (n_levels m - 1) in
  do l <- get1 (m_pyr m) level;
  let s := s * IZR (rows l) - / 2 in let t := t * IZR (cols l) - / 2 in
  let s0 := ftoi s in let t0 := ftoi t in
  let ds := s - IZR s0 in let dt := t - IZR t0 in
  do a <- texel (m_wrap m) l s0 t0; do b <- texel (m_wrap m) l s0 (t0 + 1);
  do c <- texel (m_wrap m) l (s0 + 1) t0; do d <- texel (m_wrap m) l (s0 + 1) (t0 + 1);
  Ok ((1 - ds) * (1 - dt) * a + (1 - ds) * dt * b + ds * (1 - dt) * c + ds * dt * d).
(** texture/utility.py:348-378 (__EWA): numpy has no srqt; everything after line 378 is unreachable *)
Definition ewa (m : mip) (level : Z) (s t ds0 dt0 ds1 dt1 : R) : res R :=
  if (n_levels m <=? level)%Z then do l <- get1 (m_pyr m) (n_levels m - 1); texel (m_wrap m) l 0 0
  else py_attr numpy_names "srqt"%string (Ok 0).
(** texture/utility.py:411-437 (look_up with [s, t, width]; [s, t] is width = 0) *)
Definition look_up3 (m : mip) (s t width : R) : res R :=
  let level := IZR (n_levels m - 1) + log2R (Rmax width EPS) in
  if Rltb level 0 then triangle m 0 s t
  else if Rleb (IZR (n_levels m - 1)) level then triangle m (n_levels m) 0 0
  else
    let il := ftoi level in let d := level - IZR il in
    do a <- triangle m il s t; do b <- triangle m (il + 1) s t; Ok ((1 - d) * a + d * b).
(** texture/utility.py:439-467 (look_up with differentials) *)
Definition look_up6 (m : mip) (s t a0 b0 a1 b1 : R) : res R :=
  if m_tri m then look_up3 m s t (2 * Rmax (Rmax (Rabs a0) (Rabs b0)) (Rmax (Rabs a1) (Rabs b1)))
  else
    let '(ds0, dt0, ds1, dt1) := if Rltb (a0 * a0 + b0 * b0) (a1 * a1 + b1 * b1) then (a1, b1, a0, b0) else (a0, b0, a1, b1) in
    let major := sqrt (ds0 * ds0 + dt0 * dt0) in
    let minor := sqrt (ds1 * ds1 + dt1 * dt1) in
    let clampd := Rltb (minor * m_aniso m) major && Rltb 0 minor in
    let scale := if clampd then major / (minor * m_aniso m) else 1 in
    let ds0 := ds0 * scale in let ds1 := ds1 * scale in let minor := minor * scale in
    if Reqb minor 0 then triangle m 0 s t
    else
      let lod := Rmax 0 (IZR (n_levels m) - 1 + log2R minor) in
      let lodi := ftoi lod in let d := lod - IZR lodi in
      do x <- ewa m lodi s t ds0 dt0 ds1 dt1; do y <- ewa m (lodi + 1) s t ds0 dt0 ds1 dt1;
      Ok ((1 - d) * x + d * y).

(** ** Image textures (texture/texture/image.py) *)
Inductive memtype := MemRGB | MemFloat.
(** image.py:33-67: what identifies a cached image: not the storage type *)
Record texinfo := mkTI { ti_file : nat; ti_tri : bool; ti_aniso : R; ti_wrap : wrap; ti_scale : R; ti_gamma : R }.
(** image.py:58-64 (TexInfo.__eq__) *)
Definition wrap_eqb (a b : wrap) : bool :=
  match a, b with REPEAT, REPEAT | BLACK, BLACK | CLAMP, CLAMP => true | _, _ => false end.
Definition ti_eqb (a b : texinfo) : bool :=
  Nat.eqb (ti_file a) (ti_file b) && Bool.eqb (ti_tri a) (ti_tri b) && Reqb (ti_aniso a) (ti_aniso b) &&
  wrap_eqb (ti_wrap a) (ti_wrap b) && Reqb (ti_scale a) (ti_scale b) && Reqb (ti_gamma a) (ti_gamma b).
Fixpoint lookup_cache (c : list (texinfo * (memtype * mip))) (k : texinfo) : option (memtype * mip) :=
  match c with [] => None | (k', m) :: t => if ti_eqb k k' then Some m else lookup_cache t k end.
(** image.py:126-156 (get_texture).  [file]: the texels of one channel, None if reading the file raises.
    [cv]: the conversion of a texel (86-101).  Line 143 allocates [height, width] = [columns, rows] but reads
    texels[t, s] with t < columns (146).  The fallback (152) uses self.power, which does not exist. *)
Definition get_texture (mt : memtype) (file : option image) (cv : R -> R) (k : texinfo)
    (cache : list (texinfo * (memtype * mip))) : res ((memtype * mip) * list (texinfo * (memtype * mip))) :=
  match lookup_cache cache k with
  | Some m => Ok (m, cache)
  | None =>
      match file with
      | None =>
          py_attr image_texture_names "power"%string
            (do m <- mip_make REPEAT false 8 true [[ti_scale k]]; Ok ((mt, m), (k, (mt, m)) :: cache))
      | Some texels =>
          do conv <- fill (cols texels) (rows texels) (fun t s => do x <- get2 texels t s; Ok (cv x));
          do m <- match mt with
                  | MemRGB => mip_make (ti_wrap k) (ti_tri k) (ti_aniso k) true conv
                  | MemFloat => mip_make_float conv
                  end;
          Ok ((mt, m), (k, (mt, m)) :: cache)
      end
  end.
(** image.py:104-120 (__convert__out__): isinstance with a string raises TypeError before anything is compared *)
Definition convert_out (x : R) : res R := py_isinstance false (Ok x).
(** image.py:81-83 (ImageTexture.__call__): the mapping yields six numbers *)
Definition image_tex (m : mip) (s t a0 b0 a1 b1 : R) : res R := do x <- look_up6 m s t a0 b0 a1 b1; convert_out x.
