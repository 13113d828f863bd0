(** Model of pytracer/interface (api.py, option.py, parameter.py, __init__.py).  Python lists are mutable
    objects, so the transform sets live in a heap of lists and the module globals hold addresses. *)
From Coq Require Import String Ascii.
From Coq Require Import Reals List ZArith Bool.
From Verif Require Import Base M_Transform.
Import ListNotations.
Open Scope R_scope.
Open Scope list_scope.

(** ** Importing the package *)
(** A module-level function definition: its decorators and the names its unquoted parameter annotations use.  Python
    evaluates the annotations (and decorators) when the definition is executed. *)
Record pydef := mkDef { d_name : string; d_annotations : list string }.
Definition mem (x : string) (l : list string) : bool := existsb (String.eqb x) l.
Fixpoint run_defs (bound : list string) (ds : list pydef) : res (list string) :=
  match ds with
  | [] => Ok bound
  | d :: t => if forallb (fun a => mem a bound) (d_annotations d) then run_defs (d_name d :: bound) t
              else Err NameError
  end.
(** interface/api.py:11-13 bind these names at run time (the imports of lines 14-17 are under TYPE_CHECKING, which is
    False at run time); [str] and [list] are builtins *)
Definition api_names : list string := ["absolute_import"; "TYPE_CHECKING"; "util"; "str"; "list"]%string.
(** interface/api.py:20-113: the first definitions with their annotations (the rest follow the same pattern) *)
Definition api_defs : list pydef :=
  [mkDef "system_init" ["Option"]; mkDef "system_clean" []; mkDef "check_system_inited" [];
   mkDef "trans_identity" []; mkDef "trans_translate" []; mkDef "trans_rotate" ["list"]; mkDef "trans_scale" ["list"];
   mkDef "trans_look_at" ["list"; "list"; "list"]; mkDef "trans_concat" ["Transform"]; mkDef "trans_set" ["Transform"]]%string.
(** interface/__init__.py:12-14 *)
Definition import_interface : res (list string) := run_defs api_names api_defs.

(** ** State *)
(** interface/__init__.py:18-21 *)
Inductive phase := UNINIT | OPTIONS | WORLD.
(** interface/option.py:27-52: names and parameter objects by kind; parameter objects are opaque ids *)
Inductive kind := KFilter | KFilm | KCamera | KSampler | KAggregator | KRenderer | KSurface | KVolume.
Definition kind_eqb (a b : kind) : bool :=
  match a, b with
  | KFilter, KFilter | KFilm, KFilm | KCamera, KCamera | KSampler, KSampler | KAggregator, KAggregator
  | KRenderer, KRenderer | KSurface, KSurface | KVolume, KVolume => true
  | _, _ => false
  end.
Record ropts := mkRO { o_start : R; o_end : R; o_name : kind -> string; o_param : kind -> option nat; o_c2w : nat }.
(** interface/option.py:29-52 *)
Definition default_name (k : kind) : string :=
  match k with
  | KFilter => "box" | KFilm => "image" | KCamera => "perspective" | KSampler => "stratified"
  | KAggregator => "simple" | KRenderer => "sampler" | KSurface => "directlighting" | KVolume => ""
  end%string.
(** interface/__init__.py:21-34: the module globals.  Stacks have their top first.  [s_gnext] numbers the
    GraphicsState objects. *)
Record st := mkSt {
  s_status : phase; s_gopt : option nat; s_ropt : option ropts;
  s_heap : list (list (option transform)); s_tset : nat; s_tstack : list nat;
  s_gs : option nat; s_gstack : list (option nat); s_gnext : nat;
  s_coords : list (string * nat) }.
(** interface/__init__.py:21-34 *)
Definition initial : st := mkSt UNINIT None None [[None; None]] 0 [] None [] 0 [].

Definition deref (s : st) (a : nat) : list (option transform) := nth a (s_heap s) [].
Fixpoint upd_nth {A} (k : nat) (a : A) (l : list A) : list A :=
  match l, k with [], _ => [] | _ :: t, O => a :: t | h :: t, S k => h :: upd_nth k a t end.
Definition set_heap (s : st) (h : list (list (option transform))) : st :=
  mkSt (s_status s) (s_gopt s) (s_ropt s) h (s_tset s) (s_tstack s) (s_gs s) (s_gstack s) (s_gnext s) (s_coords s).
Definition store (s : st) (a : nat) (l : list (option transform)) : st := set_heap s (upd_nth a l (s_heap s)).
Definition set_status (s : st) (p : phase) : st :=
  mkSt p (s_gopt s) (s_ropt s) (s_heap s) (s_tset s) (s_tstack s) (s_gs s) (s_gstack s) (s_gnext s) (s_coords s).
Definition set_ropt (s : st) (o : option ropts) : st :=
  mkSt (s_status s) (s_gopt s) o (s_heap s) (s_tset s) (s_tstack s) (s_gs s) (s_gstack s) (s_gnext s) (s_coords s).
Definition set_tset (s : st) (a : nat) : st :=
  mkSt (s_status s) (s_gopt s) (s_ropt s) (s_heap s) a (s_tstack s) (s_gs s) (s_gstack s) (s_gnext s) (s_coords s).
Definition set_tstack (s : st) (l : list nat) : st :=
  mkSt (s_status s) (s_gopt s) (s_ropt s) (s_heap s) (s_tset s) l (s_gs s) (s_gstack s) (s_gnext s) (s_coords s).
Definition set_gs (s : st) (g : option nat) (l : list (option nat)) : st :=
  mkSt (s_status s) (s_gopt s) (s_ropt s) (s_heap s) (s_tset s) (s_tstack s) g l (s_gnext s) (s_coords s).
Definition set_coords (s : st) (c : list (string * nat)) : st :=
  mkSt (s_status s) (s_gopt s) (s_ropt s) (s_heap s) (s_tset s) (s_tstack s) (s_gs s) (s_gstack s) (s_gnext s) c.

(** a call's outcome: the state afterwards and the exception it raised, if any *)
Definition out := (st * option exn)%type.

(** ** Calls.  The decorator check_system_inited (interface/api.py:50-54) runs its test once, when the function is
    defined, and returns the function itself: calls are not checked. *)
(** interface/api.py:20-35 (Spectrum.init is taken to succeed); option.py:50-52: a fresh list of identities *)
Definition system_init (s : st) (o : nat) : out :=
  match s_status s with
  | UNINIT =>
      let a := length (s_heap s) in
      (mkSt OPTIONS (Some o) (Some (mkRO 0 1 default_name (fun _ => None) a))
         (s_heap s ++ [[Some t_identity; Some t_identity]]) (s_tset s) (s_tstack s)
         (Some (s_gnext s)) (s_gstack s) (S (s_gnext s)) (s_coords s), None)
  | _ => (s, Some RuntimeError)
  end.
(** interface/api.py:38-47 *)
Definition system_clean (s : st) : out :=
  match s_status s with
  | UNINIT => (s, None)
  | _ => (mkSt UNINIT None None (s_heap s) (s_tset s) (s_tstack s) (s_gs s) (s_gstack s) (s_gnext s) (s_coords s), None)
  end.
(** interface/api.py:57-62: in place, entry by entry *)
Definition trans_identity (s : st) : out :=
  (store s (s_tset s) (map (fun _ => Some t_identity) (deref s (s_tset s))), None).
(** the loop of interface/api.py:70-71, 79-80, 87-88, 96-99, 105-106: entries are replaced in order; None *= t raises *)
Fixpoint mul_entries (l : list (option transform)) (t : transform) : list (option transform) * option exn :=
  match l with
  | [] => ([], None)
  | None :: r => (None :: r, Some TypeError)
  | Some x :: r => let '(r', e) := mul_entries r t in (Some (t_mul x t) :: r', e)
  end.
(** interface/api.py:102-106 *)
Definition trans_concat (s : st) (t : transform) : out :=
  let '(l, e) := mul_entries (deref s (s_tset s)) t in (store s (s_tset s) l, e).
(** interface/api.py:65-71 *)
Definition trans_translate (s : st) (dx : vec) : out := trans_concat s (t_translate dx).
(** interface/api.py:74-80 *)
Definition trans_rotate (s : st) (angle : R) (dx : vec) : out := trans_concat s (t_rotate angle dx).
(** interface/api.py:83-88 *)
Definition trans_scale (s : st) (sc : vec) : out := trans_concat s (t_scale (vx sc) (vy sc) (vz sc)).
(** interface/api.py:91-99 *)
Definition trans_look_at (s : st) (eye at_ up : vec) : out := trans_concat s (t_look_at eye at_ up).
(** interface/api.py:109-113 *)
Definition trans_set (s : st) (t : transform) : out :=
  (store s (s_tset s) (map (fun _ => Some t) (deref s (s_tset s))), None).
(** interface/api.py:117-121: the list object itself is stored *)
Definition add_coordinate_system (s : st) (name : string) : out :=
  (set_coords s ((name, s_tset s) :: s_coords s), None).
Fixpoint lookup (name : string) (c : list (string * nat)) : option nat :=
  match c with [] => None | (n, a) :: t => if String.eqb name n then Some a else lookup name t end.
(** interface/api.py:124-131 *)
Definition set_coordinate_system (s : st) (name : string) : out :=
  match lookup name (s_coords s) with
  | None => (s, Some RuntimeError)
  | Some a => (set_tset s a, None)
  end.
(** interface/api.py:135-139; attribute assignment on None raises *)
Definition set_transformation_time (s : st) (a b : R) : out :=
  match s_ropt s with
  | None => (s, Some AttributeError)
  | Some o => (set_ropt s (Some (mkRO a b (o_name o) (o_param o) (o_c2w o))), None)
  end.
(** str.lower on ASCII letters *)
Definition lower_char (c : ascii) : ascii :=
  let n := nat_of_ascii c in if (65 <=? n)%nat && (n <=? 90)%nat then ascii_of_nat (n + 32) else c.
Fixpoint lower (s : string) : string :=
  match s with EmptyString => EmptyString | String c t => String (lower_char c) (lower t) end.
Definition put_opt (o : ropts) (k : kind) (name : string) (p : option nat) : ropts :=
  mkRO (o_start o) (o_end o) (fun k' => if kind_eqb k k' then lower name else o_name o k')
       (fun k' => if kind_eqb k k' then p else o_param o k') (o_c2w o).
(** interface/api.py:143-154, 166-198: every setter except set_camera *)
Definition set_option (s : st) (k : kind) (name : string) (p : option nat) : out :=
  match s_ropt s with
  | None => (s, Some AttributeError)
  | Some o => (set_ropt s (Some (put_opt o k name p)), None)
  end.
(** the list comprehension of interface/api.py:162: None has no inverse method *)
Fixpoint inverses (l : list (option transform)) : res (list (option transform)) :=
  match l with
  | [] => Ok []
  | None :: _ => Err AttributeError
  | Some t :: r => do r' <- inverses r; Ok (Some (t_inverse t) :: r')
  end.
(** interface/api.py:157-163 *)
Definition set_camera (s : st) (name : string) (p : option nat) : out :=
  match s_ropt s with
  | None => (s, Some AttributeError)
  | Some o =>
      let o1 := put_opt o KCamera name p in
      match inverses (deref s (s_tset s)) with
      | Err e => (set_ropt s (Some o1), Some e)
      | Ok l =>
          let a := length (s_heap s) in
          let s1 := set_heap (set_ropt s (Some (mkRO (o_start o1) (o_end o1) (o_name o1) (o_param o1) a)))
                             (s_heap s ++ [l]) in
          (set_coords s1 (("camera"%string, a) :: s_coords s1), None)
      end
  end.
(** interface/api.py:202-207 *)
Definition world_begin (s : st) : out :=
  let '(s1, _) := trans_identity (set_status s WORLD) in add_coordinate_system s1 "world".
(** interface/api.py:210-214 *)
Definition attribute_begin (s : st) : out :=
  (set_tstack (set_gs s (s_gs s) (s_gs s :: s_gstack s)) (s_tset s :: s_tstack s), None).
(** interface/api.py:217-225: list.pop on an empty list raises *)
Definition attribute_end (s : st) : out :=
  match s_gstack s with
  | [] => (s, None)
  | g :: gr =>
      let s1 := set_gs s g gr in
      match s_tstack s1 with
      | [] => (s1, Some IndexError)
      | t :: tr => (set_tstack (set_tset s1 t) tr, None)
      end
  end.
(** interface/api.py:228-231 *)
Definition transform_begin (s : st) : out := (set_tstack s (s_tset s :: s_tstack s), None).
(** interface/api.py:234-241 *)
Definition transform_end (s : st) : out :=
  match s_tstack s with
  | [] => (s, None)
  | t :: tr => (set_tstack (set_tset s t) tr, None)
  end.

Inductive call :=
| Init (o : nat) | Clean
| Identity | Translate (dx : vec) | Rotate (angle : R) (dx : vec) | Scale (sc : vec)
| LookAt (eye at_ up : vec) | Concat (t : transform) | SetTrans (t : transform)
| AddCoord (name : string) | SetCoord (name : string)
| SetTime (a b : R) | SetOption (k : kind) (name : string) (p : option nat) | SetCamera (name : string) (p : option nat)
| WorldBegin | AttrBegin | AttrEnd | TransBegin | TransEnd.
Definition exec (s : st) (c : call) : out :=
  match c with
  | Init o => system_init s o | Clean => system_clean s
  | Identity => trans_identity s | Translate d => trans_translate s d | Rotate a d => trans_rotate s a d
  | Scale v => trans_scale s v | LookAt e a u => trans_look_at s e a u | Concat t => trans_concat s t
  | SetTrans t => trans_set s t
  | AddCoord n => add_coordinate_system s n | SetCoord n => set_coordinate_system s n
  | SetTime a b => set_transformation_time s a b | SetOption k n p => set_option s k n p
  | SetCamera n p => set_camera s n p
  | WorldBegin => world_begin s | AttrBegin => attribute_begin s | AttrEnd => attribute_end s
  | TransBegin => transform_begin s | TransEnd => transform_end s
  end.
(** a script: calls in order; the caller may catch exceptions and go on *)
Definition run (s : st) (cs : list call) : st := fold_left (fun s c => fst (exec s c)) cs s.

(** ** Param (interface/parameter.py) *)
(** parameter.py:19-20 *)
Definition PARAM_TYPE : list string :=
  ["float"; "int"; "bool"; "vector"; "normal"; "spectrum"; "point"; "string"]%string.
Section Param.
Context {D : Type}.
(** parameter.py:22-35: one list per type *)
Definition param := string -> list D.
Definition param_new : param := fun _ => [].
Definition param_put (p : param) (tp : string) (l : list D) : param := fun t => if String.eqb tp t then l else p t.
(** parameter.py:37-42 *)
Definition push_back (p : param) (tp : string) (d : D) : param * res unit :=
  if mem tp PARAM_TYPE then (param_put p tp (p tp ++ [d]), Ok tt) else (p, Err KeyError).
(** parameter.py:44-51 *)
Definition enum (p : param) (tp : string) : param * res (option D) :=
  if mem tp PARAM_TYPE then
    match p tp with
    | [] => (p, Ok None)
    | d :: r => (param_put p tp r, Ok (Some d))
    end
  else (p, Err KeyError).
(** parameter.py:53-58 (the returned list is the stored one; callers are assumed not to modify it) *)
Definition fetch (p : param) (tp : string) : res (list D) := if mem tp PARAM_TYPE then Ok (p tp) else Err KeyError.
(** parameter.py:60-64 *)
Definition has_more (p : param) (tp : string) : res bool :=
  if mem tp PARAM_TYPE then Ok (0 <? length (p tp))%nat else Err KeyError.
End Param.
