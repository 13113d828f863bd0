(** Model of the lazy refinement in Voxel.intersect / Voxel.intersect_p
    (pytracer/aggregate/aggregate.py:120-168) with any number of threads querying one voxel.
    Interleaving semantics: one step of one thread reads or writes one shared location (the flag
    all_can_intersect, one cell of the list of primitives, the lock).  What a query does with an
    intersectable primitive is abstracted to recording that it used it (ray/primitive tests do not
    touch the voxel's state).  Exceptions inside refinement are not modelled. *)
From Coq Require Import List Arith Bool.
Import ListNotations.

Section Voxel.
(** [A]: primitives that cannot be intersected, [B]: intersectable ones.  [refined a] is what line
    127-132 (150-158) puts in place of [a]: the only primitive full_refine yields, or a GridAccel
    over all of them.  Both are intersectable. *)
Context {A B : Type} (refined : A -> B).
Definition cell := (A + B)%type.
Definition can_intersect (c : cell) : bool := match c with inl _ => false | inr _ => true end.

(** Program counters of one query; aggregate.py:120-144 = 146-168 *)
Inductive pc :=
| Idle                       (* between queries *)
| Check                      (* 122 / 148: read the flag *)
| Acquire                    (* 123 / 149 *)
| Look (i : nat)             (* 124-126 / 150-152: read cell i, ask can_intersect *)
| Put (i : nat) (a : A)      (* 127-132 / 153-158: refine a, write cell i *)
| SetFlag                    (* 134 / 160 *)
| Release                    (* 135 / 161 *)
| Scan (i : nat) (used : list B)   (* 141-143 / 165-167: use cell i *)
| Broken (a : A)             (* a primitive that cannot be intersected was used *)
| Done (used : list B).      (* 144 / 168 *)

Record vstate := mkVS {
  v_flag : bool;             (* 111, 134: all_can_intersect *)
  v_cells : list cell;       (* 112: primitives *)
  v_lock : option nat;       (* 229: the grid's lock, holder *)
  v_pc : nat -> pc;          (* per thread *)
  v_log : list nat }.        (* ghost: cells refined so far, latest first *)

Definition upd (f : nat -> pc) (t : nat) (p : pc) : nat -> pc := fun u => if Nat.eqb u t then p else f u.
Fixpoint put (l : list cell) (i : nat) (c : cell) : list cell :=
  match l, i with
  | [], _ => []
  | _ :: l', O => c :: l'
  | x :: l', S i' => x :: put l' i' c
  end.
Definition goto (s : vstate) (t : nat) (p : pc) : vstate :=
  mkVS (v_flag s) (v_cells s) (v_lock s) (upd (v_pc s) t p) (v_log s).

(** One step of thread [t]. *)
Inductive vstep (t : nat) (s : vstate) : vstate -> Prop :=
| s_begin : v_pc s t = Idle -> vstep t s (goto s t Check)
| s_check_t : v_pc s t = Check -> v_flag s = true -> vstep t s (goto s t (Scan 0 []))
| s_check_f : v_pc s t = Check -> v_flag s = false -> vstep t s (goto s t Acquire)
| s_acquire : v_pc s t = Acquire -> v_lock s = None ->
    vstep t s (mkVS (v_flag s) (v_cells s) (Some t) (upd (v_pc s) t (Look 0)) (v_log s))
| s_look_ok i b : v_pc s t = Look i -> nth_error (v_cells s) i = Some (inr b) -> vstep t s (goto s t (Look (S i)))
| s_look_raw i a : v_pc s t = Look i -> nth_error (v_cells s) i = Some (inl a) -> vstep t s (goto s t (Put i a))
| s_look_end i : v_pc s t = Look i -> nth_error (v_cells s) i = None -> vstep t s (goto s t SetFlag)
| s_put i a : v_pc s t = Put i a ->
    vstep t s (mkVS (v_flag s) (put (v_cells s) i (inr (refined a))) (v_lock s)
                    (upd (v_pc s) t (Look (S i))) (i :: v_log s))
| s_set : v_pc s t = SetFlag ->
    vstep t s (mkVS true (v_cells s) (v_lock s) (upd (v_pc s) t Release) (v_log s))
| s_release : v_pc s t = Release ->
    vstep t s (mkVS (v_flag s) (v_cells s) None (upd (v_pc s) t (Scan 0 [])) (v_log s))
| s_scan_ok i u b : v_pc s t = Scan i u -> nth_error (v_cells s) i = Some (inr b) ->
    vstep t s (goto s t (Scan (S i) (u ++ [b])))
| s_scan_raw i u a : v_pc s t = Scan i u -> nth_error (v_cells s) i = Some (inl a) -> vstep t s (goto s t (Broken a))
| s_scan_end i u : v_pc s t = Scan i u -> nth_error (v_cells s) i = None -> vstep t s (goto s t (Done u))
| s_next u : v_pc s t = Done u -> vstep t s (goto s t Idle).

(** aggregate.py:110-112: a new voxel; no thread is inside a query *)
Definition vinit (cells : list cell) : vstate := mkVS false cells None (fun _ => Idle) [].
(** Executions: any schedule of any threads. *)
Inductive vreach (cells : list cell) : vstate -> Prop :=
| vr_init : vreach cells (vinit cells)
| vr_step s t s' : vreach cells s -> vstep t s s' -> vreach cells s'.

(** What every query should see: each primitive, refined if it needed it, in order. *)
Definition expected (cells : list cell) : list B :=
  map (fun c => match c with inl a => refined a | inr b => b end) cells.
End Voxel.
