(** Model of concurrent film updates (film/film.py:171-217 run by several worker threads).
    Every `cell += d` of the source is a read of the cell followed by a write of the sum, as separate
    steps of the thread; `Lxyz += ...` and `splatXYZ += ...` on 3-arrays are three such pairs (finer than
    numpy's in-place addition, so every real interleaving is covered).  A pixel's lock is a
    non-reentrant mutex.  The computation of the weights touches no shared mutable state and is done when
    the thread's code is generated. *)
From Coq Require Import Reals List ZArith Bool.
From Verif Require Import Base M_Film S_Film.
Import ListNotations.
Open Scope R_scope.

(** film/film.py:99-103: the mutable cells of a pixel *)
Inductive field := LX | LY | LZ | LW | SX | SY | SZ.
Definition addr : Type := (Z * Z) * field.
Inductive instr := Acq (p : Z * Z) | Rel (p : Z * Z) | Rd (a : addr) | Wr (a : addr) (d : R).
(** one augmented assignment `cell += d` (film/film.py:187-188, 196-197, 216) *)
Definition inc (p : Z * Z) (fd : field) (d : R) : list instr := [Rd (p, fd); Wr (p, fd) d].
(** film/film.py:171 *)
Definition sync (f : film) : bool := Rltb (/2) (f_xw (ffilt f)) || Rltb (/2) (f_yw (ffilt f)).
(** film/film.py:186-197 *)
Definition pixel_code (f : film) (p : Z * Z) (wt : R) (xyz : vec) : list instr :=
  let body := inc p LX (wt * vx xyz) ++ inc p LY (wt * vy xyz) ++ inc p LZ (wt * vz xyz) ++ inc p LW wt in
  if negb (sync f) then body else Acq p :: body ++ [Rel p].
(** film/film.py:176-197 *)
Fixpoint pixels_code (f : film) (sx sy : R) (xyz : vec) (cs : list (Z * Z)) : res (list instr) :=
  match cs with
  | [] => Ok []
  | (x, y) :: cs =>
      do wt <- weight f sx sy x y;
      do rest <- pixels_code f sx sy xyz cs;
      Ok (pixel_code f (x, y) wt xyz ++ rest)
  end.
(** film/film.py:137-198 *)
Definition add_code (f : film) (sx sy : R) (L : vec) : res (list instr) :=
  pixels_code f sx sy (rgb2xyz L) (coords f sx sy).
(** film/film.py:200-217 *)
Definition splat_code (f : film) (sx sy : R) (L : vec) : list instr :=
  let x := Zfloor sx in
  let y := Zfloor sy in
  if (x <? xstart f)%Z || (xcnt f <=? x - xstart f)%Z || (y <? ystart f)%Z || (ycnt f <=? y - ystart f)%Z
  then []
  else let xyz := rgb2xyz L in
       Acq (x, y) :: inc (x, y) SX (vx xyz) ++ inc (x, y) SY (vy xyz) ++ inc (x, y) SZ (vz xyz) ++ [Rel (x, y)].
Definition op_code (f : film) (o : film_op) : res (list instr) :=
  match o with Add sx sy L => add_code f sx sy L | Splat sx sy L => Ok (splat_code f sx sy L) end.
Fixpoint work_code (f : film) (os : list film_op) : res (list instr) :=
  match os with
  | [] => Ok []
  | o :: os => do c <- op_code f o; do r <- work_code f os; Ok (c ++ r)
  end.
(** one thread per work list *)
Fixpoint spawn (f : film) (ws : list (list film_op)) : res (list (list instr)) :=
  match ws with
  | [] => Ok []
  | w :: ws => do c <- work_code f w; do r <- spawn f ws; Ok (c :: r)
  end.

(** ** The machine *)
Record thread := mkT { code : list instr; reg : R }.
Record conf := mkC { mem : addr -> R; lock : Z * Z -> option nat; threads : list thread }.
Definition pt_eqb (p q : Z * Z) : bool := (fst p =? fst q)%Z && (snd p =? snd q)%Z.
Definition field_eqb (a b : field) : bool :=
  match a, b with LX, LX | LY, LY | LZ, LZ | LW, LW | SX, SX | SY, SY | SZ, SZ => true | _, _ => false end.
Definition addr_eqb (a b : addr) : bool := pt_eqb (fst a) (fst b) && field_eqb (snd a) (snd b).
Definition upd_mem (m : addr -> R) (a : addr) (v : R) : addr -> R := fun b => if addr_eqb b a then v else m b.
Definition upd_lock (l : Z * Z -> option nat) (p : Z * Z) (o : option nat) : Z * Z -> option nat :=
  fun q => if pt_eqb q p then o else l q.
(** thread [i] takes one step; acquiring blocks while the lock is taken *)
Inductive step : conf -> nat -> conf -> Prop :=
| StRd m l ts i a k r : nth_error ts i = Some (mkT (Rd a :: k) r) ->
    step (mkC m l ts) i (mkC m l (replace_nth i (mkT k (m a)) ts))
| StWr m l ts i a d k r : nth_error ts i = Some (mkT (Wr a d :: k) r) ->
    step (mkC m l ts) i (mkC (upd_mem m a (r + d)) l (replace_nth i (mkT k r) ts))
| StAcq m l ts i p k r : nth_error ts i = Some (mkT (Acq p :: k) r) -> l p = None ->
    step (mkC m l ts) i (mkC m (upd_lock l p (Some i)) (replace_nth i (mkT k r) ts))
| StRel m l ts i p k r : nth_error ts i = Some (mkT (Rel p :: k) r) ->
    step (mkC m l ts) i (mkC m (upd_lock l p None) (replace_nth i (mkT k r) ts)).
(** [n] steps of any threads in any order *)
Inductive exec : conf -> nat -> conf -> Prop :=
| ExRefl c : exec c 0 c
| ExStep c n c' i c'' : exec c n c' -> step c' i c'' -> exec c (S n) c''.
Definition finished (c : conf) : Prop := Forall (fun t => code t = []) (threads c).
(** the film as shared memory *)
Definition get_field (p : pixel) (fd : field) : R :=
  match fd with
  | LX => vx (pL p) | LY => vy (pL p) | LZ => vz (pL p) | LW => pW p
  | SX => vx (pS p) | SY => vy (pS p) | SZ => vz (pS p)
  end.
Definition film_mem (f : film) : addr -> R := fun '((x, y), fd) => get_field (pix f x y) fd.
Definition start (f : film) (cs : list (list instr)) : conf :=
  mkC (film_mem f) (fun _ => None) (map (fun c => mkT c 0) cs).
