From Coq Require Import String.
From Coq Require Import Reals Lra Lia List Bool ZArith.
From Verif Require Import Base M_Transform M_Interface S_Interface P_Interface.
Import ListNotations.
Open Scope list_scope.

Lemma deref_grow h l a : (a < length h)%nat -> nth a (h ++ [l]) [] = nth a h ([] : list (option transform)).
Proof. intros. now apply app_nth1. Qed.
Lemma keeps_heap s c : ~ changes_transform c -> forall a, (a < length (s_heap s))%nat ->
  (a < length (s_heap (fst (exec s c))))%nat /\ deref (fst (exec s c)) a = deref s a.
Proof.
  intros N0 a A. destruct c; cbn in N0; try tauto; cbn [exec]; try (split; [exact A|reflexivity]).
  - unfold system_init. destruct (s_status s); cbn [fst s_heap]; auto. unfold deref; cbn [s_heap].
    rewrite app_length, deref_grow by exact A. split; [cbn; lia|reflexivity].
  - unfold system_clean. destruct (s_status s); auto.
  - unfold set_coordinate_system. destruct lookup; auto.
  - unfold set_transformation_time. destruct s_ropt; auto.
  - unfold set_option. destruct s_ropt; auto.
  - unfold set_camera. destruct s_ropt; auto. destruct inverses; auto. unfold deref; cbn [fst s_heap set_coords set_heap].
    rewrite app_length, deref_grow by exact A. split; [cbn; lia|reflexivity].
  - unfold attribute_end. destruct s_gstack; auto. cbn [s_tstack set_gs]. destruct s_tstack; auto.
  - unfold transform_end. destruct s_tstack; auto.
Qed.
Lemma keeps_heap_run cs : Forall (fun c => ~ changes_transform c) cs -> forall s a, (a < length (s_heap s))%nat ->
  (a < length (s_heap (run s cs)))%nat /\ deref (run s cs) a = deref s a.
Proof.
  induction 1 as [|c cs N0 F IH]; intros s a A; [auto|]. rewrite run_cons.
  destruct (keeps_heap s c N0 a A) as [A1 A2]. destruct (IH (fst (exec s c)) a A1) as [B1 B2]. rewrite B2, A2. auto.
Qed.
Lemma attr_contents h cs : balanced cs -> Forall (fun c => ~ changes_transform c) cs ->
  let s := run initial h in current (run s (AttrBegin :: cs ++ [AttrEnd])) = current s.
Proof.
  intros B F s. pose proof (wf_run h initial wf_initial) as (A & _). fold s in A.
  destruct (attr_pair s cs B) as (T & _ & _ & _ & H). unfold current. rewrite T. unfold deref at 1. rewrite H.
  exact (proj2 (keeps_heap_run cs F (fst (exec s AttrBegin)) (s_tset s) A)).
Qed.
Lemma trans_contents h cs : balanced cs -> Forall (fun c => ~ changes_transform c) cs ->
  let s := run initial h in current (run s (TransBegin :: cs ++ [TransEnd])) = current s.
Proof.
  intros B F s. pose proof (wf_run h initial wf_initial) as (A & _). fold s in A.
  destruct (trans_pair s cs B) as (T & _ & _ & H). unfold current. rewrite T. unfold deref at 1. rewrite H.
  exact (proj2 (keeps_heap_run cs F (fst (exec s TransBegin)) (s_tset s) A)).
Qed.

(** the accumulated transform *)
Lemma mul_step s c t x y : wf s -> multiplies c t -> current s = [Some x; Some y] ->
  current (fst (exec s c)) = [Some (t_mul x t); Some (t_mul y t)] /\ snd (exec s c) = None /\
  s_tset (fst (exec s c)) = s_tset s /\ s_tstack (fst (exec s c)) = s_tstack s /\ s_gstack (fst (exec s c)) = s_gstack s /\
  s_gs (fst (exec s c)) = s_gs s /\ s_coords (fst (exec s c)) = s_coords s.
Proof.
  intros W M C. assert (X : exec s c = trans_concat s t).
  { destruct c; cbn in M; try contradiction; subst; reflexivity. }
  rewrite X. unfold trans_concat. unfold current in C. rewrite C. cbn [mul_entries fst snd].
  repeat split. unfold current. change (s_tset (store s (s_tset s) _)) with (s_tset s).
  rewrite deref_store by apply W. now rewrite Nat.eqb_refl.
Qed.
Lemma accumulate cs ts : Forall2 multiplies cs ts -> forall s x y, wf s -> current s = [Some x; Some y] ->
  current (run s cs) = [Some (fold_left t_mul ts x); Some (fold_left t_mul ts y)].
Proof.
  induction 1 as [|c t cs ts M F IH]; intros s x y W C; [exact C|]. rewrite run_cons.
  destruct (mul_step s c t x y W M C) as (C1 & _). cbn [fold_left]. apply IH; [now apply wf_exec|exact C1].
Qed.
Lemma identity_current s : wf s -> current (fst (exec s Identity)) = [Some t_identity; Some t_identity].
Proof.
  intros W. cbn [exec]. unfold trans_identity, current. cbn [fst]. change (s_tset (store s _ _)) with (s_tset s).
  rewrite deref_store by apply W. rewrite Nat.eqb_refl.
  pose proof (deref_length s W) as L. destruct (deref s (s_tset s)) as [|? [|? [|? ?]]]; cbn in L; try lia. reflexivity.
Qed.
Lemma world_current s : wf s -> current (fst (exec s WorldBegin)) = [Some t_identity; Some t_identity].
Proof. intros W. exact (identity_current s W). Qed.
Lemma set_current s t : wf s -> current (fst (exec s (SetTrans t))) = [Some t; Some t].
Proof.
  intros W. cbn [exec]. unfold trans_set, current. cbn [fst]. change (s_tset (store s _ _)) with (s_tset s).
  rewrite deref_store by apply W. rewrite Nat.eqb_refl.
  pose proof (deref_length s W) as L. destruct (deref s (s_tset s)) as [|? [|? [|? ?]]]; cbn in L; try lia. reflexivity.
Qed.

(** the camera *)
Definition cam_inv (a : nat) (L : list (option transform)) (s : st) : Prop :=
  wf s /\ (exists o, s_ropt s = Some o /\ o_c2w o = a) /\ deref s a = L /\ s_tset s <> a /\ ~ In a (s_tstack s) /\
  (forall n b, In (n, b) (s_coords s) -> b = a -> n = "camera"%string).
Definition cam_safe (c : call) : Prop :=
  match c with Init _ | Clean | SetCamera _ _ => False | SetCoord n => n <> "camera"%string | _ => True end.
Lemma cam_store a L s l : cam_inv a L s -> length l = 2%nat -> cam_inv a L (store s (s_tset s) l).
Proof.
  intros (W & O & D & T & K & C) LL. split; [now apply wf_store|]. split; [exact O|].
  split; [rewrite deref_store by apply W; destruct (Nat.eqb_spec a (s_tset s)); [congruence|exact D]|]. auto.
Qed.
Lemma cam_step a L s c : cam_inv a L s -> cam_safe c -> cam_inv a L (fst (exec s c)).
Proof.
  intros I0 SF. pose proof I0 as (W & (o & O1 & O2) & D & T & K & C).
  assert (MUL : forall t, cam_inv a L (fst (trans_concat s t))).
  { intros t. unfold trans_concat. pose proof (mul_entries_length (deref s (s_tset s)) t) as ML.
    destruct (mul_entries _ t) as [l e]. cbn [fst] in *. apply cam_store; auto. rewrite ML. now apply deref_length. }
  assert (MAP : forall t, cam_inv a L (store s (s_tset s) (map (fun _ => Some t) (deref s (s_tset s))))).
  { intros t. apply cam_store; auto. rewrite map_length. now apply deref_length. }
  pose proof (wf_exec s c W) as W'.
  destruct c; cbn in SF; try contradiction; cbn [exec] in *; try (apply MUL); try (apply MAP).
  - split; [exact W'|]. cbn. split; [eauto|]. split; [exact D|]. split; [exact T|]. split; [exact K|].
    intros n b [Q|Q] B; [injection Q as <- <-; congruence|]. eauto.
  - unfold set_coordinate_system in *. destruct (lookup name (s_coords s)) as [b|] eqn:Q; [|exact I0].
    split; [exact W'|]. cbn. split; [eauto|]. split; [exact D|]. split; [|split; [exact K|exact C]].
    apply lookup_in in Q. intros ->. apply SF. eapply C; eauto.
  - unfold set_transformation_time in *. rewrite O1 in *. split; [exact W'|]. cbn. split; [eexists; split; [reflexivity|]; auto|]. auto.
  - unfold set_option in *. rewrite O1 in *. split; [exact W'|]. cbn. split; [eexists; split; [reflexivity|]; auto|]. auto.
  - destruct (MAP t_identity) as (A1 & A2 & A3 & A4 & A5 & A6). split; [exact W'|].
    unfold world_begin, trans_identity, add_coordinate_system. cbn. split; [eauto|]. split; [exact A3|]. split; [exact T|]. split; [exact K|].
    intros n b [Q|Q] B; [injection Q as <- <-; congruence|]. eauto.
  - split; [exact W'|]. cbn. split; [eauto|]. split; [exact D|]. split; [exact T|]. split; [|exact C]. cbn. intros [Q|Q]; [congruence|auto].
  - unfold attribute_end in *. destruct (s_gstack s) as [|g gr] eqn:G; [exact I0|]. cbn [s_tstack set_gs] in *.
    destruct (s_tstack s) as [|t tr] eqn:TS; cbn [fst] in *; (split; [exact W'|]); cbn.
    + rewrite TS. split; [eauto|]. auto.
    + split; [eauto|]. split; [exact D|]. cbn in K. split; [intros ->; apply K; auto|]. split; [intros Q; apply K; auto|exact C].
  - split; [exact W'|]. cbn. split; [eauto|]. split; [exact D|]. split; [exact T|]. split; [|exact C]. cbn. intros [Q|Q]; [congruence|auto].
  - unfold transform_end in *. destruct (s_tstack s) as [|t tr] eqn:TS; [exact I0|]. cbn [fst] in *. split; [exact W'|]. cbn.
    split; [eauto|]. split; [exact D|]. cbn in K. split; [intros ->; apply K; auto|]. split; [intros Q; apply K; auto|exact C].
Qed.
Lemma cam_run a L cs : Forall cam_safe cs -> forall s, cam_inv a L s -> cam_inv a L (run s cs).
Proof. induction 1; intros s I0; [exact I0|]. rewrite run_cons. apply IHForall, cam_step; auto. Qed.
Lemma inverses_ok x y : inverses [Some x; Some y] = Ok [Some (t_inverse x); Some (t_inverse y)].
Proof. reflexivity. Qed.
Lemma camera_captured h name p x y cs : let s := run initial h in
  s_ropt s <> None -> current s = [Some x; Some y] -> Forall cam_safe cs ->
  snd (exec s (SetCamera name p)) = None /\
  camera_to_world (run s (SetCamera name p :: cs)) = Some [Some (t_inverse x); Some (t_inverse y)].
Proof.
  intros s O C F. pose proof (wf_run h initial wf_initial) as W. fold s in W.
  destruct (s_ropt s) as [o|] eqn:Q; [|congruence]. 
  assert (X : exec s (SetCamera name p) = (fst (exec s (SetCamera name p)), None)).
  { cbn [exec]. unfold set_camera. rewrite Q. unfold current in C. rewrite C. reflexivity. }
  split; [now rewrite X|]. rewrite run_cons.
  set (a := length (s_heap s)).
  assert (I0 : cam_inv a [Some (t_inverse x); Some (t_inverse y)] (fst (exec s (SetCamera name p)))).
  { pose proof (wf_exec s (SetCamera name p) W) as W'. cbn [exec] in *. unfold set_camera in *. rewrite Q in *.
    unfold current in C. rewrite C in *. rewrite inverses_ok in *. cbn [fst] in *.
    split; [exact W'|]. cbn [s_ropt set_coords set_heap set_ropt s_tset s_tstack s_coords s_heap].
    split; [eexists; split; reflexivity|]. destruct W as (A & B & D & E0 & G).
    split; [unfold deref; cbn [s_heap set_coords set_heap]; unfold a; rewrite app_nth2, Nat.sub_diag by lia; reflexivity|].
    split; [unfold a; lia|]. split.
    - intros N0. rewrite Forall_forall in D. specialize (D _ N0). unfold a in D. lia.
    - intros n b [K|K] ->; [injection K as <-; reflexivity|]. rewrite Forall_forall in E0. specialize (E0 _ K). cbn in E0. unfold a in E0. lia. }
  destruct (cam_run a _ cs F _ I0) as (_ & (o' & O1 & O2) & D & _). unfold camera_to_world. rewrite O1, O2, D. reflexivity.
Qed.

(** phases *)
Lemma exec_phase s c : s_status (fst (exec s c)) = next_phase (s_status s) c.
Proof.
  assert (MUL : forall t, s_status (fst (trans_concat s t)) = s_status s)
    by (intros; unfold trans_concat; destruct mul_entries; reflexivity).
  destruct c; cbn [exec]; try apply MUL; try reflexivity.
  - unfold system_init, next_phase. destruct (s_status s) eqn:Q; cbn [fst s_status]; auto.
  - unfold system_clean, next_phase. destruct (s_status s) eqn:Q; cbn [fst s_status]; auto.
  - unfold set_coordinate_system. destruct lookup; reflexivity.
  - unfold set_transformation_time. destruct s_ropt; reflexivity.
  - unfold set_option. destruct s_ropt; reflexivity.
  - unfold set_camera. destruct s_ropt; [destruct inverses|]; reflexivity.
  - unfold attribute_end. destruct s_gstack; [reflexivity|]. cbn [s_tstack set_gs]. destruct s_tstack; reflexivity.
  - unfold transform_end. destruct s_tstack; reflexivity.
Qed.
Lemma run_phase h s : s_status (run s h) = fold_left next_phase h (s_status s).
Proof. revert s. induction h; intros s; [reflexivity|]. rewrite run_cons, IHh, exec_phase. reflexivity. Qed.
Definition opts_ok (s : st) : Prop := (s_status s = UNINIT <-> s_ropt s = None) /\ (s_status s = UNINIT <-> s_gopt s = None).
Lemma opts_same s s' : s_status s' = s_status s -> s_ropt s' = s_ropt s -> s_gopt s' = s_gopt s -> opts_ok s -> opts_ok s'.
Proof. unfold opts_ok. intros -> -> ->. auto. Qed.
Lemma exec_opts s c : opts_ok s -> (c = WorldBegin -> s_status s <> UNINIT) -> opts_ok (fst (exec s c)).
Proof.
  intros O WB. destruct c; cbn [exec]; try (eapply opts_same; [| | |exact O]; reflexivity).
  - unfold system_init. destruct (s_status s); auto. unfold opts_ok; cbn. repeat split; discriminate.
  - unfold system_clean. destruct (s_status s); auto; unfold opts_ok; cbn; repeat split; auto.
  - unfold trans_translate, trans_concat. destruct mul_entries; (eapply opts_same; [| | |exact O]; reflexivity).
  - unfold trans_rotate, trans_concat. destruct mul_entries; (eapply opts_same; [| | |exact O]; reflexivity).
  - unfold trans_scale, trans_concat. destruct mul_entries; (eapply opts_same; [| | |exact O]; reflexivity).
  - unfold trans_look_at, trans_concat. destruct mul_entries; (eapply opts_same; [| | |exact O]; reflexivity).
  - unfold trans_concat. destruct mul_entries; (eapply opts_same; [| | |exact O]; reflexivity).
  - unfold set_coordinate_system. destruct lookup; (eapply opts_same; [| | |exact O]; reflexivity).
  - unfold set_transformation_time. destruct O as [O1 O2]. destruct s_ropt eqn:Q; unfold opts_ok; cbn; [|rewrite Q; auto].
    split; [split; intros H; [apply O1 in H|]; discriminate|exact O2].
  - unfold set_option. destruct O as [O1 O2]. destruct s_ropt eqn:Q; unfold opts_ok; cbn; [|rewrite Q; auto].
    split; [split; intros H; [apply O1 in H|]; discriminate|exact O2].
  - unfold set_camera. destruct O as [O1 O2]. destruct s_ropt eqn:Q; [destruct inverses|]; unfold opts_ok; cbn; rewrite ?Q; auto;
    (split; [split; intros H; [apply O1 in H|]; discriminate|exact O2]).
  - specialize (WB eq_refl). destruct O as [O1 O2]. unfold opts_ok; cbn. split; split; intros H; try discriminate; exfalso; tauto.
  - unfold attribute_end. destruct s_gstack; auto. cbn [s_tstack set_gs]. destruct s_tstack; (eapply opts_same; [| | |exact O]; reflexivity).
  - unfold transform_end. destruct s_tstack; (eapply opts_same; [| | |exact O]; reflexivity).
Qed.
Lemma run_opts h p : world_after_init p h -> forall s, s_status s = p -> opts_ok s -> opts_ok (run s h).
Proof.
  induction 1 as [|p c h H W IH]; intros s S O; [exact O|]. rewrite run_cons. apply IH; [now rewrite exec_phase, S|].
  apply exec_opts; auto. rewrite S. exact H.
Qed.

(** parameters *)
Lemma param_fifo {D} (h : list (pop D)) : forall p tp, mem tp PARAM_TYPE = true ->
  let '(q, rs) := param_run p h in p tp ++ pushed tp h = returned tp rs ++ q tp.
Proof.
  induction h as [|[t d|t] h IH]; intros p tp M; cbn [param_run pushed returned].
  - now rewrite app_nil_r.
  - specialize (IH (fst (push_back p t d)) tp M). destruct (param_run _ h) as [q rs]. rewrite <- IH.
    unfold push_back. destruct (String.eqb_spec tp t) as [<-|N0].
    + rewrite M. cbn [fst]. unfold param_put. rewrite String.eqb_refl, <- app_assoc. reflexivity.
    + destruct (mem t PARAM_TYPE); [|reflexivity]. cbn [fst]. unfold param_put.
      destruct (String.eqb_spec t tp); [congruence|]. reflexivity.
  - destruct (enum p t) as [p' r] eqn:En. specialize (IH p' tp M). destruct (param_run p' h) as [q rs].
    unfold enum in En. destruct (mem t PARAM_TYPE) eqn:Mt; [|injection En as <- <-; exact IH].
    destruct (p t) as [|d l] eqn:Pt; [injection En as <- <-; exact IH|]. injection En as <- <-.
    unfold param_put in IH. destruct (String.eqb_spec tp t) as [<-|N0].
    + rewrite String.eqb_refl in IH. cbn [returned]. rewrite ?String.eqb_refl, Pt. cbn [app]. now rewrite IH.
    + destruct (String.eqb_spec t tp); [congruence|]. cbn [returned]. destruct (String.eqb_spec tp t); [congruence|]. exact IH.
Qed.
