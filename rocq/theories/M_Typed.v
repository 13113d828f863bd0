(** Points, vectors and normals as Python objects: arithmetic with their classes and with IEEE specials
    (geometry/__init__.py:13-278).  A value is a class and three float64 components; float64 is [E] (no rounding).
    numpy gives the result of an elementwise operation the class of the first operand that is not a plain array
    (__array_priority__ is equal for the three classes). *)
From Coq Require Import Reals List Bool.
From Verif Require Import Base M_Geometry.
Open Scope R_scope.

(** geometry/__init__.py:15, 98, 198 *)
Inductive cls := CVector | CPoint | CNormal.
Record tv := mkT { tcls : cls; tc : V3 E }.
(** an operand: one of these objects or a number *)
Inductive operand := Obj (t : tv) | Num (s : E).
(** numpy.isnan *)
Definition is_nan (x : E) : bool := match x with NaN => true | _ => false end.
(** geometry/__init__.py:33-39, 123-129, 216-222: the constructors refuse NaN *)
Definition t_make (c : cls) (x y z : E) : res tv :=
  if is_nan x || is_nan y || is_nan z then Err ValueError else Ok (mkT c (mkV x y z)).
(** geometry/__init__.py:41-44, 131-134, 224-227 (from_arr) of an array of any length *)
Definition t_from_arr (c : cls) (l : list E) : res tv :=
  match l with
  | x :: y :: z :: nil => t_make c x y z
  | _ => Err AssertionError
  end.
(** inherited from numpy.ndarray: a + b, and a + s *)
Definition t_add (a : tv) (b : operand) : tv :=
  match b with
  | Obj b => mkT (tcls a) (vmap2 eadd (tc a) (tc b))
  | Num s => mkT (tcls a) (vmap (fun x => eadd x s) (tc a))
  end.
(** inherited: s * a and a * s *)
Definition t_scale (s : E) (a : tv) : tv := mkT (tcls a) (vmap (emul s) (tc a)).
(** inherited: - a *)
Definition t_neg (a : tv) : tv := mkT (tcls a) (vmap eopp (tc a)).
(** inherited a - b (Vector, Normal), and Point.__sub__ (geometry/__init__.py:166-174) *)
Definition t_sub (a : tv) (b : operand) : res tv :=
  match tcls a with
  | CPoint =>
      match b with
      | Obj b =>
          match tcls b with
          | CPoint => t_make CVector (esub (vx (tc a)) (vx (tc b))) (esub (vy (tc a)) (vy (tc b))) (esub (vz (tc a)) (vz (tc b)))
          | CVector => t_make CPoint (esub (vx (tc a)) (vx (tc b))) (esub (vy (tc a)) (vy (tc b))) (esub (vz (tc a)) (vz (tc b)))
          | CNormal => Err TypeError
          end
      | Num _ => Err TypeError
      end
  | c =>
      match b with
      | Obj b => Ok (mkT c (vmap2 esub (tc a) (tc b)))
      | Num s => Ok (mkT c (vmap (fun x => esub x s) (tc a)))
      end
  end.
(** inherited a -= b (Vector, Normal), and Point.__isub__ (geometry/__init__.py:176-177); the new value of a *)
Definition t_isub (a : tv) (b : operand) : res tv :=
  match tcls a with CPoint => Err TypeError | _ => t_sub a b end.
(** geometry/__init__.py:70-71, 160-161, 253-254: numpy.array_equal looks at the components only *)
Definition t_eq (a b : tv) : bool := eeqb (vx (tc a)) (vx (tc b)) && eeqb (vy (tc a)) (vy (tc b)) && eeqb (vz (tc a)) (vz (tc b)).
(** geometry/__init__.py:73-74, 163-164, 256-257 *)
Definition t_ne (a b : tv) : bool := negb (t_eq a b).
(** geometry/utility.py:76-89 (face_forward), finite components *)
Definition t_face_forward (n v : cls * vec) : res (cls * vec) :=
  match fst n, fst v with
  | CNormal, CVector => Ok (CNormal, if Rltb (vdot (snd n) (snd v)) 0 then vneg (snd n) else snd n)
  | _, _ => Err TypeError
  end.
