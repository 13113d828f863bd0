(** Property theorems C49-C51, C89-C95 (scene-description interface).  Vocabulary: S_Interface.v. *)
From Coq Require Import String.
From Coq Require Import Reals Lra Lia List Bool ZArith.
From Verif Require Import Base M_Transform M_Interface S_Interface P_Interface P_Interface2.
Import ListNotations.
Open Scope list_scope.

(** C49: for every well-nested script the pair restores which transform set is current, both stacks and
    the graphics state; the transforms themselves are restored if the script changes none. *)
Theorem C49_blocks_partial (h cs : list call) : balanced cs ->
  let s := run initial h in
  let a := run s (AttrBegin :: cs ++ [AttrEnd]) in
  let t := run s (TransBegin :: cs ++ [TransEnd]) in
  s_tset a = s_tset s /\ s_tstack a = s_tstack s /\ s_gs a = s_gs s /\ s_gstack a = s_gstack s /\
  s_tset t = s_tset s /\ s_tstack t = s_tstack s /\ s_gstack t = s_gstack s /\
  (Forall (fun c => ~ changes_transform c) cs -> current a = current s /\ current t = current s).
Proof.
  intros B s a t. destruct (attr_pair s cs B) as (A1 & A2 & A3 & A4 & _). destruct (trans_pair s cs B) as (T1 & T2 & T3 & _).
  repeat split; auto. - now apply attr_contents. - now apply trans_contents.
Qed.
Print Assumptions C49_blocks_partial.
Example C49_ex : balanced [Identity; AttrBegin; Translate (mkV 1 0 0)%R; TransBegin; TransEnd; AttrEnd; AddCoord "a"].
Proof.
  apply bal_call; [exact I|]. apply (bal_attr [Translate (mkV 1 0 0)%R; TransBegin; TransEnd] [AddCoord "a"]).
  - apply bal_call; [exact I|]. apply (bal_trans [] []); constructor.
  - apply bal_call; [exact I|constructor].
Qed.
(** any transformation made inside a block survives its end: the pair has no effect at all on it *)
Theorem C49_contents_refuted :
  (forall h c t x y, let s := run initial h in multiplies c t -> current s = [Some x; Some y] ->
     current (run s [AttrBegin; c; AttrEnd]) = current (run s [c]) /\
     current (run s [TransBegin; c; TransEnd]) = current (run s [c])) /\
  (exists h d, let s := run initial h in current (run s [AttrBegin; Translate d; AttrEnd]) <> current s).
Proof.
  assert (G : forall h c t x y, let s := run initial h in multiplies c t -> current s = [Some x; Some y] ->
     current (run s [AttrBegin; c; AttrEnd]) = [Some (t_mul x t); Some (t_mul y t)] /\
     current (run s [TransBegin; c; TransEnd]) = [Some (t_mul x t); Some (t_mul y t)] /\
     current (run s [c]) = [Some (t_mul x t); Some (t_mul y t)]).
  { intros h c t x y s M C. pose proof (wf_run h initial wf_initial) as W. fold s in W.
    destruct (mul_step s c t x y W M C) as (E0 & _).
    assert (X : forall s', exec s' c = trans_concat s' t) by (intros; destruct c; cbn in M; try contradiction; subst; reflexivity).
    unfold run. cbn [fold_left]. rewrite !X in *. unfold trans_concat in *. unfold current in C, E0.
    rewrite C in *. cbn [mul_entries fst] in *. split; [|split].
    - cbn [exec attribute_begin fst]. unfold attribute_begin; cbn [fst]. 
      unfold deref in *; cbn [set_tstack set_gs s_heap s_tset] in *. rewrite C. cbn [mul_entries fst].
      cbn. exact E0.
    - cbn [exec fst]. unfold transform_begin; cbn [fst].
      unfold deref in *; cbn [set_tstack s_heap s_tset] in *. rewrite C. cbn [mul_entries fst]. cbn. exact E0.
    - exact E0. }
  split; [intros h c t x y s M C; destruct (G h c t x y M C) as (Q1 & Q2 & Q3); cbv zeta in Q1, Q2, Q3; subst s; rewrite Q1, Q2, Q3; auto|].
  exists [Init 0; Identity], (mkV 1 0 0)%R. cbv zeta.
  destruct (G [Init 0; Identity] (Translate (mkV 1 0 0)%R) _ t_identity t_identity eq_refl eq_refl) as (-> & _).
  intros Q. apply (f_equal (fun l => match l with Some t :: _ => q3 (row0 (tm t)) | _ => 0%R end)) in Q.
  unfold t_identity, t_translate, t_mul, mmul, I4, dot4, col3 in Q; cbn in Q. lra.
Qed.
Print Assumptions C49_contents_refuted.

(** C50 *)
Theorem C50_session (h : list call) (o : nat) :
  let s := run initial h in
  s_status s = phase_after h /\
  (phase_after h <> UNINIT -> exec s (Init o) = (s, Some RuntimeError)) /\
  (phase_after h = UNINIT -> snd (exec s (Init o)) = None /\ s_status (fst (exec s (Init o))) = OPTIONS /\
     s_gopt (fst (exec s (Init o))) = Some o) /\
  (snd (exec s Clean) = None /\ s_status (fst (exec s Clean)) = UNINIT /\
     exec (fst (exec s Clean)) Clean = (fst (exec s Clean), None)).
Proof.
  intros s. assert (P : s_status s = phase_after h) by apply run_phase. split; [exact P|]. rewrite <- P.
  split; [|split].
  - intros N0. cbn [exec]. unfold system_init. destruct (s_status s); [congruence|reflexivity|reflexivity].
  - intros U. cbn [exec]. unfold system_init. rewrite U. auto.
  - cbn [exec]. unfold system_clean. destruct (s_status s) eqn:U; cbn [fst snd s_status]; rewrite ?U; auto.
Qed.
Print Assumptions C50_session.
Theorem C50_setters (h : list call) (c : call) : world_after_init UNINIT h -> needs_options c ->
  let s := run initial h in
  (phase_after h = UNINIT -> exec s c = (s, Some AttributeError)) /\
  (phase_after h <> UNINIT -> snd (exec s c) = None \/ exists n p, c = SetCamera n p /\ In None (current s)).
Proof.
  intros W ND s. assert (P : s_status s = phase_after h) by apply run_phase.
  assert (O : opts_ok s). { apply (run_opts h UNINIT W initial eq_refl). unfold opts_ok; cbn; tauto. }
  rewrite <- P. destruct O as [O _]. split; intros U.
  - apply O in U. destruct c; cbn in ND; try contradiction; cbn [exec].
    + unfold set_transformation_time. now rewrite U.
    + unfold set_option. now rewrite U.
    + unfold set_camera. now rewrite U.
  - assert (R0 : s_ropt s <> None) by tauto. destruct (s_ropt s) as [r|] eqn:Q; [|congruence].
    destruct c; cbn in ND; try contradiction; cbn [exec].
    + unfold set_transformation_time. rewrite Q. auto.
    + unfold set_option. rewrite Q. auto.
    + unfold set_camera. rewrite Q. unfold current.
      destruct (inverses (deref s (s_tset s))) eqn:I0; [auto|]. right. exists name, p. split; [reflexivity|].
      revert I0. generalize (deref s (s_tset s)). induction l as [|[x|] l IH]; cbn; [discriminate| |auto].
      destruct (inverses l); [discriminate|]. intros I0. right. apply IH. cbn in I0. congruence.
Qed.
Print Assumptions C50_setters.
Example C50_ex : world_after_init UNINIT [Init 0; SetOption KFilm "Image" None; WorldBegin; Clean; Init 1].
Proof. repeat (constructor; [cbn; congruence|]). constructor. Qed.
(** option values: the last setting of each kind is what is kept, in lower case, and other kinds are untouched *)
Theorem C50_values (h : list call) (k : kind) (name : string) (p : option nat) (o : ropts) :
  s_ropt (run initial h) = Some o ->
  exists o', s_ropt (fst (exec (run initial h) (SetOption k name p))) = Some o' /\
    o_name o' k = lower name /\ o_param o' k = p /\
    (forall k', k' <> k -> o_name o' k' = o_name o k' /\ o_param o' k' = o_param o k') /\
    o_start o' = o_start o /\ o_end o' = o_end o /\ o_c2w o' = o_c2w o.
Proof.
  intros Q. cbn [exec]. unfold set_option. rewrite Q. eexists; split; [reflexivity|]. unfold put_opt; cbn.
  assert (K : kind_eqb k k = true) by (destruct k; reflexivity). rewrite K. repeat split; auto;
  intros; destruct (kind_eqb k k') eqn:X; auto; destruct k, k'; cbn in X; congruence.
Qed.
Print Assumptions C50_values.

(** C93: calls before initialisation are accepted, and opening the world block first makes initialisation
    impossible *)
Theorem C93_before_init_refuted :
  (exists c, snd (exec initial c) = None /\ fst (exec initial c) <> initial /\ c = Identity) /\
  (snd (exec initial WorldBegin) = None /\
   forall o, exec (fst (exec initial WorldBegin)) (Init o) = (fst (exec initial WorldBegin), Some RuntimeError)).
Proof.
  split; [|split; [reflexivity|intros; reflexivity]]. exists Identity. split; [reflexivity|]. split; [|reflexivity].
  intros Q. apply (f_equal current) in Q. discriminate Q.
Qed.
Print Assumptions C93_before_init_refuted.
(** C94: cleaning up keeps the transforms, the named systems and the stacks *)
Theorem C94_clean_refuted :
  (forall s, let c := fst (exec s Clean) in s_heap c = s_heap s /\ s_tset c = s_tset s /\ s_tstack c = s_tstack s /\
     s_coords c = s_coords s /\ s_gstack c = s_gstack s /\ s_gs c = s_gs s) /\
  (exists h, let s := run initial (h ++ [Clean; Init 0]) in
     current s <> current (run initial [Init 0]) /\ s_tstack s <> []).
Proof.
  split.
  - intros s c. unfold c. cbn [exec]. unfold system_clean. destruct (s_status s); cbn; auto 6.
  - exists [Init 0; WorldBegin; AttrBegin]. cbv zeta. split; [|discriminate]. intros Q. discriminate Q.
Qed.
Print Assumptions C94_clean_refuted.
(** C95: the package cannot be imported: the annotation of the first function names a class that is only imported
    for type checkers *)
Theorem C95_import_refuted : import_interface = Err NameError /\
  (forall bound, mem "Option" bound = false -> run_defs bound api_defs = Err NameError).
Proof.
  split; [reflexivity|]. intros b H. unfold api_defs. cbn [run_defs d_annotations forallb]. rewrite H. reflexivity.
Qed.
Print Assumptions C95_import_refuted.

(** C89: unmatched ends *)
Theorem C89_unmatched_partial (s : st) :
  (s_gstack s = [] -> exec s AttrEnd = (s, None)) /\ (s_tstack s = [] -> exec s TransEnd = (s, None)).
Proof. split; intros H; cbn [exec]; [unfold attribute_end|unfold transform_end]; now rewrite H. Qed.
Print Assumptions C89_unmatched_partial.
Theorem C89_unmatched_refuted :
  snd (exec (run initial [Init 0; Identity; AttrBegin; TransEnd]) AttrEnd) = Some IndexError /\
  (exists h, let s := run initial h in s_gstack s = [] /\ s_tstack s <> [] /\
     h = [Init 0; Identity; AttrBegin; TransBegin; AttrEnd]).
Proof. split; [reflexivity|]. eexists. split; [|split; [|reflexivity]]; cbn; [reflexivity|discriminate]. Qed.
Print Assumptions C89_unmatched_refuted.

(** C90: named coordinate systems *)
Theorem C90_named_partial (h : list call) (n : string) : let s := run initial h in
  (current (run s [AddCoord n; SetCoord n]) = current s /\ snd (exec (fst (exec s (AddCoord n))) (SetCoord n)) = None) /\
  (lookup n (s_coords s) = None -> exec s (SetCoord n) = (s, Some RuntimeError)).
Proof.
  intros s. split.
  - unfold run. cbn [fold_left exec]. unfold add_coordinate_system, set_coordinate_system. cbn. rewrite String.eqb_refl. cbn. auto.
  - intros H. cbn [exec]. unfold set_coordinate_system. now rewrite H.
Qed.
Print Assumptions C90_named_partial.
Theorem C90_copy_refuted :
  (forall h n c t x y, let s := run initial h in multiplies c t -> current s = [Some x; Some y] ->
     current (run s [AddCoord n; c; SetCoord n]) = [Some (t_mul x t); Some (t_mul y t)]) /\
  (exists h d, let s := run initial h in
     camera_to_world (run s [SetCamera "perspective" None; SetCoord "camera"; Translate d]) <>
     camera_to_world (run s [SetCamera "perspective" None])).
Proof.
  split.
  - intros h n c t x y s M C. pose proof (wf_run h initial wf_initial) as W. fold s in W.
    destruct (mul_step (fst (exec s (AddCoord n))) c t x y (wf_exec s (AddCoord n) W) M C) as (E0 & _ & T & _ & _ & _ & K).
    unfold run. cbn [fold_left]. set (s2 := fst (exec (fst (exec s (AddCoord n))) c)) in *. clearbody s2.
    cbn [exec]. unfold set_coordinate_system. rewrite K. cbn [exec add_coordinate_system fst set_coords s_coords lookup].
    unfold add_coordinate_system; cbn [fst set_coords s_coords lookup]. rewrite String.eqb_refl. cbn [fst].
    cbn in T. unfold current in *. cbn [set_tset s_tset]. rewrite T in E0. exact E0.
  - exists [Init 0; Identity], (mkV 1 0 0)%R. cbv zeta.
    unfold run. cbn [fold_left exec fst].
    intros Q. apply (f_equal (fun l => match l with Some (Some t :: _) => q3 (row0 (tm t)) | _ => 0%R end)) in Q.
    cbv [camera_to_world system_init initial trans_identity set_camera set_coordinate_system trans_translate trans_concat
         fst snd s_status s_ropt s_tset s_heap deref store set_heap set_ropt set_coords set_tset upd_nth nth map inverses bind
         put_opt o_c2w o_start o_end o_name o_param lookup s_coords mul_entries length app String.eqb Ascii.eqb Bool.eqb
         s_gopt s_tstack s_gs s_gstack s_gnext t_identity t_translate t_inverse tm tinv t_mul I4 mmul dot4 row0 q3 q0 q1 q2 col3 row1 row2 row3 vx vy vz] in Q. lra.
Qed.
Print Assumptions C90_copy_refuted.

(** C91: the current transformation is the product of the calls in order *)
Theorem C91_accumulates (h cs : list call) (ts : list transform) : Forall2 multiplies cs ts ->
  let s := run initial h in
  (forall c, c = Identity \/ c = WorldBegin ->
     current (run s (c :: cs)) = [Some (fold_left t_mul ts t_identity); Some (fold_left t_mul ts t_identity)]) /\
  (forall t, current (run s (SetTrans t :: cs)) = [Some (fold_left t_mul ts t); Some (fold_left t_mul ts t)]) /\
  (forall x y, current s = [Some x; Some y] ->
     current (run s cs) = [Some (fold_left t_mul ts x); Some (fold_left t_mul ts y)]).
Proof.
  intros F s. pose proof (wf_run h initial wf_initial) as W. fold s in W. split; [|split].
  - intros c C. rewrite run_cons. apply accumulate; auto; [now apply wf_exec|].
    destruct C as [-> | ->]; [now apply identity_current|now apply world_current].
  - intros t. rewrite run_cons. apply accumulate; auto; [now apply wf_exec|now apply set_current].
  - intros x y C. now apply accumulate.
Qed.
Print Assumptions C91_accumulates.
Example C91_ex : Forall2 multiplies [Translate (mkV 1 2 3)%R; Scale (mkV 2 2 2)%R] [t_translate (mkV 1 2 3)%R; t_scale 2 2 2].
Proof. repeat constructor. Qed.

(** C92: set_camera records the inverse of the current transforms, and later transformations do not change it
    (unless the script makes "camera" the current system, see C90) *)
Theorem C92_camera (h cs : list call) (name : string) (p : option nat) (x y : transform) :
  let s := run initial h in
  s_ropt s <> None -> current s = [Some x; Some y] ->
  Forall (fun c => match c with Init _ | Clean | SetCamera _ _ => False | SetCoord n => n <> "camera"%string | _ => True end) cs ->
  snd (exec s (SetCamera name p)) = None /\
  camera_to_world (run s (SetCamera name p :: cs)) = Some [Some (t_inverse x); Some (t_inverse y)].
Proof. exact (camera_captured h name p x y cs). Qed.
Print Assumptions C92_camera.
Example C92_ex : s_ropt (run initial [Init 0; Identity]) <> None /\
  current (run initial [Init 0; Identity]) = [Some t_identity; Some t_identity].
Proof. split; [discriminate|reflexivity]. Qed.

(** C51 *)
Theorem C51_fifo (D : Type) (h : list (pop D)) (tp : string) : In tp PARAM_TYPE ->
  let '(q, rs) := param_run param_new h in
  pushed tp h = returned tp rs ++ q tp /\ fetch q tp = Ok (q tp) /\
  (has_more q tp = Ok true <-> q tp <> []) /\
  (forall d l, q tp = d :: l -> snd (enum q tp) = Ok (Some d) /\ fetch (fst (enum q tp)) tp = Ok l) /\
  (q tp = [] -> enum q tp = (q, Ok None)).
Proof.
  intros H. assert (M : mem tp PARAM_TYPE = true).
  { unfold mem. apply existsb_exists. exists tp. split; [exact H|apply String.eqb_refl]. }
  pose proof (param_fifo h param_new tp M) as F. destruct (param_run param_new h) as [q rs].
  split; [exact F|]. unfold fetch, has_more, enum. rewrite M. split; [reflexivity|]. split.
  - destruct (q tp); cbn; split; intros; try congruence; try reflexivity; discriminate.
  - split; [|intros ->; reflexivity]. intros d l ->. cbn [snd fst]. unfold param_put. rewrite String.eqb_refl. auto.
Qed.
Print Assumptions C51_fifo.
Theorem C51_unknown_type (D : Type) (q : @param D) (tp : string) (d : D) : ~ In tp PARAM_TYPE ->
  push_back q tp d = (q, Err KeyError) /\ enum q tp = (q, Err KeyError) /\ fetch q tp = Err KeyError /\ has_more q tp = Err KeyError.
Proof.
  intros H. assert (M : mem tp PARAM_TYPE = false).
  { unfold mem. destruct (existsb _ _) eqn:Q; auto. apply existsb_exists in Q. destruct Q as (x & X & E0).
    apply String.eqb_eq in E0. subst. contradiction. }
  unfold push_back, enum, fetch, has_more. rewrite M. auto.
Qed.
Print Assumptions C51_unknown_type.
