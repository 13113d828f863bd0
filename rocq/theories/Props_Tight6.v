(** Further property theorems found by testing the theorems against wrong programs: C57, C143, C150. *)
From Coq Require Import Reals List ZArith Bool Lra Lia.
From Coquelicot Require Import Coquelicot.
From Verif Require Import Base M_Geometry M_Transform M_Utility M_Film M_Shapes M_Texture M_MipMap S_Texture.
From Verif Require Import P_Transform P_Transform2 P_Film P_Utility P_MipMap1 P_MipMap2 P_MipMap3 P_MipMap4 P_MipMap5 P_MipMap6 P_Texture1 P_Texture2 Props_Texture.
Import ListNotations.
Open Scope R_scope.

(** C57: a trilinear lookup over a footprint is the lookup by width, the width being twice the largest of the four
    derivatives *)
Theorem C57_footprint (m : mip) (s t a0 b0 a1 b1 : R) : m_tri m = true ->
  exists w, look_up6 m s t a0 b0 a1 b1 = look_up3 m s t (2 * w) /\
    Rabs a0 <= w /\ Rabs b0 <= w /\ Rabs a1 <= w /\ Rabs b1 <= w /\
    (w = Rabs a0 \/ w = Rabs b0 \/ w = Rabs a1 \/ w = Rabs b1).
Proof.
  intros T. unfold look_up6. rewrite T. eexists. split; [reflexivity|].
  pose proof (Rmax_l (Rabs a0) (Rabs b0)). pose proof (Rmax_r (Rabs a0) (Rabs b0)).
  pose proof (Rmax_l (Rabs a1) (Rabs b1)). pose proof (Rmax_r (Rabs a1) (Rabs b1)).
  set (p := Rmax (Rabs a0) (Rabs b0)) in *. set (q := Rmax (Rabs a1) (Rabs b1)) in *.
  pose proof (Rmax_l p q). pose proof (Rmax_r p q).
  repeat (split; [lra|]).
  assert (P : p = Rabs a0 \/ p = Rabs b0) by (unfold p, Rmax; destruct Rle_dec; auto).
  assert (Q : q = Rabs a1 \/ q = Rabs b1) by (unfold q, Rmax; destruct Rle_dec; auto).
  unfold Rmax; destruct Rle_dec; intuition.
Qed.
Print Assumptions C57_footprint.
Example C57_footprint_ex : m_tri (mkMip REPEAT true 8 [[[1]]] 1 1) = true. Proof. reflexivity. Qed.

(** C143: maps cached for other files or parameters are not returned: the image is loaded as if the cache were empty,
    with the parameters asked for *)
Lemma ti_eqb_ok a b : ti_eqb a b = true -> a = b.
Proof.
  unfold ti_eqb. rewrite !andb_true_iff. intros (((((A & B) & C) & D) & F) & G). destruct a, b; cbn in *.
  apply Nat.eqb_eq in A. apply Bool.eqb_prop in B. unfold Reqb in *.
  repeat match goal with H : (if Req_EM_T ?x ?y then true else false) = true |- _ => destruct (Req_EM_T x y); [clear H|discriminate] end.
  assert (ti_wrap = ti_wrap0) by (destruct ti_wrap, ti_wrap0; try reflexivity; discriminate D). congruence.
Qed.
Theorem C143_keys_partial (img : image) (n : Z) (cv : R -> R) (k : texinfo) (cache : list (texinfo * (memtype * mip))) : shaped img n n ->
  (forall k' e, In (k', e) cache -> k' <> k) ->
  exists m, get_texture MemRGB (Some img) cv k [] = Ok ((MemRGB, m), [(k, (MemRGB, m))]) /\
    get_texture MemRGB (Some img) cv k cache = Ok ((MemRGB, m), (k, (MemRGB, m)) :: cache) /\
    m_wrap m = ti_wrap k /\ m_tri m = ti_tri k /\ m_aniso m = ti_aniso k.
Proof.
  intros Sh NI. assert (LC : lookup_cache cache k = None).
  { induction cache as [|[k' e] c IH]; [reflexivity|]. cbn [lookup_cache]. destruct (ti_eqb k k') eqn:Q.
    - exfalso. apply (NI k' e); [now left|]. symmetry. now apply ti_eqb_ok.
    - apply IH. intros k2 e2 H. apply (NI k2 e2). now right. }
  unfold get_texture. rewrite LC. cbn [lookup_cache]. rewrite (shaped_rows _ _ _ Sh), (shaped_cols _ _ _ Sh). destruct (Sh) as (R & _).
  destruct (fill_ok n n (fun t s => do x <- get2 img t s; Ok (cv x)) (fun t s => cv (pixel img t s)) R R) as (conv & -> & S1 & _).
  { intros i j Hi Hj. now rewrite (get2_px img n n). }
  cbn [bind]. destruct (make_square (ti_wrap k) (ti_tri k) (ti_aniso k) true conv n S1) as (m & l0 & a & E & _). rewrite E. cbn [bind].
  exists m. split; [reflexivity|]. split; [reflexivity|]. revert E. unfold mip_make.
  match goal with |- (do l0 <- ?x; _) = _ -> _ => destruct x; [|discriminate] end. cbn [bind].
  match goal with |- (do l0 <- ?x; _) = _ -> _ => destruct x; [|discriminate] end. cbn [bind]. intros [= <-]. auto.
Qed.
Print Assumptions C143_keys_partial.
Example C143_keys_ex : let k := mkTI 7 true 8 REPEAT 1 1 in let k' := mkTI 7 true 8 CLAMP 1 1 in
  k' <> k /\ shaped [[5]] 1 1.
Proof. split; [discriminate|]. unfold shaped. repeat split; try lia; try reflexivity. all: intros; repeat constructor. Qed.

(** C150: what the UV and planar mappings compute *)
Theorem C150_uv_values (su sv du dv : R) (g : dgeom) :
  st_s (uv_map su sv du dv g) = su * dg_u g + du /\ st_t (uv_map su sv du dv g) = sv * dg_v g + dv.
Proof. split; reflexivity. Qed.
Print Assumptions C150_uv_values.
(** the planar mapping: the coordinates of the point along the two axes, shifted *)
Theorem C150_planar_values (vs vt : vec) (ds dt : R) (g : dgeom) :
  st_s (planar_map vs vt ds dt g) = vx (dg_p g) * vx vs + vy (dg_p g) * vy vs + vz (dg_p g) * vz vs + ds /\
  st_t (planar_map vs vt ds dt g) = vx (dg_p g) * vx vt + vy (dg_p g) * vy vt + vz (dg_p g) * vz vt + dt.
Proof. unfold planar_map, vdot, vsub, vmap2; cbn. split; ring. Qed.
Print Assumptions C150_planar_values.
