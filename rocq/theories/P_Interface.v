From Coq Require Import String.
From Coq Require Import Reals Lra Lia List Bool ZArith.
From Verif Require Import Base M_Transform M_Interface S_Interface.
Import ListNotations.
Open Scope list_scope.

Lemma run_app s a b : run s (a ++ b) = run (run s a) b.
Proof. unfold run. apply fold_left_app. Qed.
Lemma run_cons s c cs : run s (c :: cs) = run (fst (exec s c)) cs.
Proof. reflexivity. Qed.

Lemma upd_nth_length {A} k (a : A) l : length (upd_nth k a l) = length l.
Proof. revert k; induction l; intros [|k]; cbn; auto. Qed.
Lemma nth_upd {A} k (a : A) l d j : (k < length l)%nat -> nth j (upd_nth k a l) d = if (j =? k)%nat then a else nth j l d.
Proof.
  revert k j. induction l as [|x l IH]; intros [|k] [|j] H; cbn in *; try lia; try reflexivity.
  rewrite IH by lia. reflexivity.
Qed.
Lemma upd_nth_out {A} k (a : A) l : (length l <= k)%nat -> upd_nth k a l = l.
Proof. revert k; induction l; intros [|k] H; cbn in *; try lia; auto. f_equal. apply IHl. lia. Qed.

(** plain calls keep the stacks *)
Lemma plain_stacks s c : plain_call c ->
  s_tstack (fst (exec s c)) = s_tstack s /\ s_gstack (fst (exec s c)) = s_gstack s.
Proof.
  intros P. destruct c; try contradiction; cbn [exec]; try (split; reflexivity).
  - unfold system_init. destruct (s_status s); split; reflexivity.
  - unfold system_clean. destruct (s_status s); split; reflexivity.
  - unfold trans_translate, trans_concat. destruct mul_entries; split; reflexivity.
  - unfold trans_rotate, trans_concat. destruct mul_entries; split; reflexivity.
  - unfold trans_scale, trans_concat. destruct mul_entries; split; reflexivity.
  - unfold trans_look_at, trans_concat. destruct mul_entries; split; reflexivity.
  - unfold trans_concat. destruct mul_entries; split; reflexivity.
  - unfold set_coordinate_system. destruct lookup; split; reflexivity.
  - unfold set_transformation_time. destruct s_ropt; split; reflexivity.
  - unfold set_option. destruct s_ropt; split; reflexivity.
  - unfold set_camera. destruct s_ropt; [|split; reflexivity]. destruct inverses; split; reflexivity.
Qed.
Lemma balanced_stacks cs : balanced cs -> forall s,
  s_tstack (run s cs) = s_tstack s /\ s_gstack (run s cs) = s_gstack s.
Proof.
  induction 1 as [|c cs P B IH|i o B1 IH1 B2 IH2|i o B1 IH1 B2 IH2]; intros s; [split; reflexivity| | |].
  - rewrite run_cons. destruct (IH (fst (exec s c))) as [-> ->]. now apply plain_stacks.
  - rewrite run_cons, run_app, run_cons. destruct (IH2 (fst (exec (run (fst (exec s AttrBegin)) i) AttrEnd))) as [-> ->].
    destruct (IH1 (fst (exec s AttrBegin))) as [T G]. set (s1 := run (fst (exec s AttrBegin)) i) in *. clearbody s1.
    cbn in T, G. cbn [exec]. unfold attribute_end. rewrite G. cbn. rewrite T. split; reflexivity.
  - rewrite run_cons, run_app, run_cons. destruct (IH2 (fst (exec (run (fst (exec s TransBegin)) i) TransEnd))) as [-> ->].
    destruct (IH1 (fst (exec s TransBegin))) as [T G]. set (s1 := run (fst (exec s TransBegin)) i) in *. clearbody s1.
    cbn in T, G. cbn [exec]. unfold transform_end. rewrite T. cbn. rewrite G. split; reflexivity.
Qed.
Lemma attr_pair s cs : balanced cs ->
  let s' := run s (AttrBegin :: cs ++ [AttrEnd]) in
  s_tset s' = s_tset s /\ s_tstack s' = s_tstack s /\ s_gs s' = s_gs s /\ s_gstack s' = s_gstack s /\
  s_heap s' = s_heap (run (fst (exec s AttrBegin)) cs).
Proof.
  intros B. cbv zeta. rewrite run_cons, run_app. destruct (balanced_stacks cs B (fst (exec s AttrBegin))) as [T G].
  set (s1 := run (fst (exec s AttrBegin)) cs) in *. clearbody s1. cbn in T, G.
  cbn [run fold_left exec]. unfold attribute_end. rewrite G. cbn. rewrite T. cbn. auto.
Qed.
Lemma trans_pair s cs : balanced cs ->
  let s' := run s (TransBegin :: cs ++ [TransEnd]) in
  s_tset s' = s_tset s /\ s_tstack s' = s_tstack s /\ s_gstack s' = s_gstack s /\
  s_heap s' = s_heap (run (fst (exec s TransBegin)) cs).
Proof.
  intros B. cbv zeta. rewrite run_cons, run_app. destruct (balanced_stacks cs B (fst (exec s TransBegin))) as [T G].
  set (s1 := run (fst (exec s TransBegin)) cs) in *. clearbody s1. cbn in T, G.
  cbn [run fold_left exec]. unfold transform_end. rewrite T. cbn. rewrite G. auto.
Qed.

(** reachable states *)
Definition wf (s : st) : Prop :=
  (s_tset s < length (s_heap s))%nat /\
  Forall (fun l => length l = 2%nat) (s_heap s) /\
  Forall (fun a => (a < length (s_heap s))%nat) (s_tstack s) /\
  Forall (fun na : string * nat => (snd na < length (s_heap s))%nat) (s_coords s) /\
  (forall o, s_ropt s = Some o -> (o_c2w o < length (s_heap s))%nat).
Lemma mul_entries_length l t : length (fst (mul_entries l t)) = length l.
Proof. induction l as [|[x|] l IH]; cbn; auto. destruct (mul_entries l t) eqn:Q. cbn in *. lia. Qed.
Lemma inverses_length l l' : inverses l = Ok l' -> length l' = length l.
Proof.
  revert l'. induction l as [|[x|] l IH]; cbn; intros l' H; try discriminate; [now injection H as <-|].
  destruct (inverses l); cbn in H; [|discriminate]. injection H as <-. cbn. f_equal. auto.
Qed.
Lemma Forall_upd {A} (P : A -> Prop) k a l : Forall P l -> P a -> Forall P (upd_nth k a l).
Proof. intros F Pa. revert k. induction F; intros [|k]; cbn; constructor; auto. Qed.
Lemma deref_length s : wf s -> length (deref s (s_tset s)) = 2%nat.
Proof.
  intros (A & B & _). unfold deref. rewrite Forall_forall in B. apply B. now apply nth_In.
Qed.
Lemma wf_store s l : wf s -> length l = 2%nat -> wf (store s (s_tset s) l).
Proof.
  intros (A & B & C & D & F) L. unfold wf, store, set_heap; cbn [s_heap s_tset s_tstack s_coords s_ropt].
  rewrite !upd_nth_length. repeat split; auto. now apply Forall_upd.
Qed.
Lemma lookup_in n c a : lookup n c = Some a -> In (n, a) c.
Proof.
  induction c as [|[m b] c IH]; cbn; [discriminate|]. destruct (String.eqb_spec n m) as [->|N0].
  - intros H; injection H as <-. auto.
  - auto.
Qed.
Lemma wf_grow s h l : wf s -> length l = 2%nat -> h = s_heap s ++ [l] ->
  (s_tset s < length h)%nat /\ Forall (fun l => length l = 2%nat) h /\
  Forall (fun a => (a < length h)%nat) (s_tstack s) /\
  Forall (fun na : string * nat => (snd na < length h)%nat) (s_coords s) /\
  (forall o, s_ropt s = Some o -> (o_c2w o < length h)%nat) /\ (length (s_heap s) < length h)%nat.
Proof.
  intros (A & B & C & D & F) L ->. rewrite app_length. cbn [length]. repeat split; try lia.
  - apply Forall_app; auto.
  - eapply Forall_impl; [|exact C]. cbn; intros; lia.
  - eapply Forall_impl; [|exact D]. cbn; intros; lia.
  - intros o O. specialize (F o O). lia.
Qed.
Lemma wf_exec s c : wf s -> wf (fst (exec s c)).
Proof.
  intros W. assert (MUL : forall t, wf (fst (trans_concat s t))).
  { intros t. unfold trans_concat. destruct (mul_entries (deref s (s_tset s)) t) as [l e] eqn:Q. cbn [fst].
    apply wf_store; auto. pose proof (mul_entries_length (deref s (s_tset s)) t) as L. rewrite Q in L. cbn in L.
    rewrite L. now apply deref_length. }
  assert (MAP : forall t, wf (store s (s_tset s) (map (fun _ => Some t) (deref s (s_tset s))))).
  { intros t. apply wf_store; auto. rewrite map_length. now apply deref_length. }
  destruct c; cbn [exec fst]; auto; try (apply MUL); try (apply MAP).
  - unfold system_init. destruct (s_status s); auto. cbn [fst].
    destruct (wf_grow s _ [Some t_identity; Some t_identity] W eq_refl eq_refl) as (A & B & C & D & F & G).
    unfold wf; cbn [s_heap s_tset s_tstack s_coords s_ropt]. repeat split; auto. intros o0 H; injection H as <-. cbn. exact G.
  - unfold system_clean. destruct W as (A & B & C & D & F). destruct (s_status s); cbn [fst]; unfold wf; cbn; repeat split; auto; intros; discriminate.
  - unfold add_coordinate_system. destruct W as (A & B & C & D & F). unfold wf; cbn. repeat split; auto.
  - unfold set_coordinate_system. destruct (lookup name (s_coords s)) eqn:Q; auto. destruct W as (A & B & C & D & F).
    unfold wf; cbn. repeat split; auto. apply lookup_in in Q. rewrite Forall_forall in D. exact (D _ Q).
  - unfold set_transformation_time. destruct (s_ropt s) eqn:Q; auto. destruct W as (A & B & C & D & F).
    unfold wf; cbn. repeat split; auto. intros o H; injection H as <-. cbn. auto.
  - unfold set_option. destruct (s_ropt s) eqn:Q; auto. destruct W as (A & B & C & D & F).
    unfold wf; cbn. repeat split; auto. intros o H; injection H as <-. cbn. auto.
  - unfold set_camera. destruct (s_ropt s) eqn:Q; auto. pose proof W as (A & B & C & D & F).
    destruct (inverses (deref s (s_tset s))) as [l|e] eqn:I0.
    + apply inverses_length in I0. rewrite (deref_length s W) in I0.
      destruct (wf_grow s _ l W I0 eq_refl) as (A1 & B1 & C1 & D1 & F1 & G1).
      cbn [fst]. unfold wf; cbn [s_heap s_tset s_tstack s_coords s_ropt set_coords set_heap set_ropt]. repeat split; auto.
      intros o H; injection H as <-. cbn. exact G1.
    + cbn [fst]. unfold wf; cbn [s_heap s_tset s_tstack s_coords s_ropt set_ropt]. repeat split; auto.
      intros o H; injection H as <-. cbn. auto.
  - unfold world_begin, trans_identity, add_coordinate_system. cbn [fst].
    change (set_status s WORLD) with (mkSt WORLD (s_gopt s) (s_ropt s) (s_heap s) (s_tset s) (s_tstack s) (s_gs s) (s_gstack s) (s_gnext s) (s_coords s)).
    destruct (MAP t_identity) as (A & B & C & D & F).
    unfold wf; cbn [set_coords store set_heap s_heap s_tset s_tstack s_coords s_ropt deref] in *. repeat split; auto.
  - unfold attribute_begin. destruct W as (A & B & C & D & F). unfold wf; cbn. repeat split; auto.
  - unfold attribute_end. destruct (s_gstack s); auto. cbn [s_tstack set_gs]. destruct W as (A & B & C & D & F).
    destruct (s_tstack s) eqn:Q; cbn [fst]; unfold wf; cbn; rewrite ?Q in *; repeat split; auto; now inversion C.
  - unfold transform_begin. destruct W as (A & B & C & D & F). unfold wf; cbn. repeat split; auto.
  - unfold transform_end. destruct (s_tstack s) eqn:Q; cbn [fst]; auto. destruct W as (A & B & C & D & F).
    unfold wf; cbn; rewrite ?Q in *; repeat split; auto; now inversion C.
Qed.
Lemma wf_initial : wf initial.
Proof. unfold wf, initial; cbn. repeat split; auto; try lia; intros; discriminate. Qed.
Lemma wf_run h s : wf s -> wf (run s h).
Proof. revert s. induction h; intros s W; [exact W|]. rewrite run_cons. apply IHh, wf_exec, W. Qed.

Lemma deref_store s l a : (s_tset s < length (s_heap s))%nat ->
  deref (store s (s_tset s) l) a = if (a =? s_tset s)%nat then l else deref s a.
Proof. intros H. unfold deref, store, set_heap; cbn [s_heap]. now apply nth_upd. Qed.
