(** Specification of concurrent film updates. *)
From Coq Require Import Reals List ZArith.
From Verif Require Import Base M_Film S_Film M_FilmThreads.
Import ListNotations.
Open Scope R_scope.

(** instructions not yet executed *)
Definition todo (c : conf) : nat := list_sum (map (fun t => length (code t)) (threads c)).
(** Workers [ws] (each a list of samples and splats) can be started on film [f], and on every schedule: each step executes
    one instruction, so no schedule is longer than the program; when every worker has finished, every pixel holds what
    running all operations one after another gives; and until then some worker can make a step. *)
Definition good_run (f : film) (ws : list (list film_op)) : Prop :=
  exists cs, spawn f ws = Ok cs /\
  forall n c, exec (start f cs) n c ->
    (n + todo c = todo (start f cs))%nat /\
    (finished c -> exists g, run_ops f (concat ws) = Ok g /\
       forall x y fd, in_film f x y -> mem c ((x, y), fd) = film_mem g ((x, y), fd)) /\
    (~ finished c -> exists i c', step c i c').

