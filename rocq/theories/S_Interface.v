(** Specification vocabulary for the scene-description interface. *)
From Coq Require Import String.
From Coq Require Import Reals List.
From Verif Require Import Base M_Transform M_Interface.
Import ListNotations.
Open Scope list_scope.

(** what a user sees: the current transforms *)
Definition current (s : st) : list (option transform) := deref s (s_tset s).
(** the camera-to-world transforms recorded in the render options *)
Definition camera_to_world (s : st) : option (list (option transform)) :=
  match s_ropt s with Some o => Some (deref s (o_c2w o)) | None => None end.
(** calls that neither open nor close a block *)
Definition plain_call (c : call) : Prop :=
  match c with AttrBegin | AttrEnd | TransBegin | TransEnd => False | _ => True end.
(** well-nested scripts *)
Inductive balanced : list call -> Prop :=
| bal_nil : balanced []
| bal_call c cs : plain_call c -> balanced cs -> balanced (c :: cs)
| bal_attr i o : balanced i -> balanced o -> balanced (AttrBegin :: i ++ AttrEnd :: o)
| bal_trans i o : balanced i -> balanced o -> balanced (TransBegin :: i ++ TransEnd :: o).
(** calls that change the current transforms *)
Definition changes_transform (c : call) : Prop :=
  match c with
  | Identity | Translate _ | Rotate _ _ | Scale _ | LookAt _ _ _ | Concat _ | SetTrans _ | WorldBegin => True
  | _ => False
  end.
(** the transform a call multiplies onto the current one *)
Definition multiplies (c : call) (t : transform) : Prop :=
  match c with
  | Translate d => t = t_translate d
  | Rotate a d => t = t_rotate a d
  | Scale v => t = t_scale (vx v) (vy v) (vz v)
  | LookAt e a u => t = t_look_at e a u
  | Concat t' => t = t'
  | _ => False
  end.
(** the phase a history leads to *)
Definition next_phase (p : phase) (c : call) : phase :=
  match c, p with
  | Init _, UNINIT => OPTIONS
  | Clean, _ => UNINIT
  | WorldBegin, _ => WORLD
  | _, _ => p
  end.
Definition phase_after (h : list call) : phase := fold_left next_phase h UNINIT.
(** scripts that never open the world block before initialising *)
Inductive world_after_init : phase -> list call -> Prop :=
| wai_nil p : world_after_init p []
| wai_cons p c h : (c = WorldBegin -> p <> UNINIT) -> world_after_init (next_phase p c) h -> world_after_init p (c :: h).
(** calls that need the render options *)
Definition needs_options (c : call) : Prop :=
  match c with SetTime _ _ | SetOption _ _ _ | SetCamera _ _ => True | _ => False end.

(** Parameter histories *)
Inductive pop (D : Type) := Push (tp : string) (d : D) | Next (tp : string).
Arguments Push {D}. Arguments Next {D}.
(** the state after a history, and what each [Next] returned *)
Fixpoint param_run {D} (p : param) (h : list (pop D)) : param * list (string * res (option D)) :=
  match h with
  | [] => (p, [])
  | Push tp d :: t => param_run (fst (push_back p tp d)) t
  | Next tp :: t => let '(p', r) := enum p tp in let '(q, rs) := param_run p' t in (q, (tp, r) :: rs)
  end.
Fixpoint pushed {D} (tp : string) (h : list (pop D)) : list D :=
  match h with
  | [] => []
  | Push t d :: r => if String.eqb tp t then d :: pushed tp r else pushed tp r
  | Next _ :: r => pushed tp r
  end.
Fixpoint returned {D} (tp : string) (rs : list (string * res (option D))) : list D :=
  match rs with
  | [] => []
  | (t, Ok (Some d)) :: r => if String.eqb tp t then d :: returned tp r else returned tp r
  | _ :: r => returned tp r
  end.

(** the options a history leaves, written as what each call does to them: the transformation times and, for each kind, the
    name and parameters; none outside a session *)
Record options := mkOpts { at_start : R; at_end : R; called : kind -> string; given : kind -> option nat }.
Definition put_kind (o : options) (k : kind) (n : string) (p : option nat) : options :=
  mkOpts (at_start o) (at_end o) (fun k' => if kind_eqb k k' then lower n else called o k')
         (fun k' => if kind_eqb k k' then p else given o k').
Definition next_options (p : phase) (o : option options) (c : call) : option options :=
  match c, p, o with
  | Init _, UNINIT, _ => Some (mkOpts 0 1 default_name (fun _ => None))
  | Clean, _, _ => None
  | SetTime a b, _, Some o => Some (mkOpts a b (called o) (given o))
  | SetOption k n q, _, Some o => Some (put_kind o k n q)
  | SetCamera n q, _, Some o => Some (put_kind o KCamera n q)
  | _, _, _ => o
  end.
Fixpoint options_from (p : phase) (o : option options) (h : list call) : option options :=
  match h with [] => o | c :: t => options_from (next_phase p c) (next_options p o c) t end.
Definition options_after (h : list call) : option options := options_from UNINIT None h.
