(** Theorems added after mutation testing: identifiers of the primitives a scene is rendered with (C259), the whole
    pinhole ray (C168), the reversed disk sample (C70). *)
From Coq Require Import Reals List Bool ZArith Lra Lia.
From Verif Require Import Base P_Refine M_Geometry M_Transform M_Shapes M_Sampler M_Camera M_Film M_Primitive P_Transform2.
Import ListNotations.
Open Scope R_scope.

(** ** C259: no two primitives of a scene share an identifier, neither the shape's nor the primitive's, and both kinds of
    identifiers stay below the next free one *)
Fixpoint after (l : list item) (ns np : Z) : Z * Z :=
  match l with
  | [] => (ns, np)
  | it :: l => after l (ns + match it_geom it with GMesh _ vi _ _ _ _ => Z.of_nat (length vi / 3) | _ => 0 end)%Z
                       (np + match it_geom it with GMesh _ vi _ _ _ _ => Z.of_nat (length vi / 3) | _ => 0 end)%Z
  end.
Definition fresh_ids (ids : list Z) (n : Z) : Prop := NoDup ids /\ List.Forall (fun i => (i < n)%Z) ids.

Lemma seq_ids (n : Z) (k : nat) : NoDup (map (fun j => (n + Z.of_nat j)%Z) (seq 0 k)).
Proof. apply FinFun.Injective_map_NoDup; [intros a b H; lia|apply seq_NoDup]. Qed.

(** what one item contributes, in terms of identifiers only *)
Definition own (f : gprim -> Z) (id n : Z) (it : item) (l : list gprim) (n' : Z) : Prop :=
  (n <= n')%Z /\ (map f l = [id] /\ n' = n \/
   exists k, map f l = rev (map (fun j => (n + Z.of_nat j)%Z) (seq 0 k)) /\ n' = (n + Z.of_nat k)%Z).
Lemma item_ids it ns np l ns' np' : full_refine_item it ns np = (l, ns', np') ->
  own gp_shape_id (it_shape_id it) ns it l ns' /\ own gp_id (it_id it) np it l np' /\
  (ns', np') = after [it] ns np.
Proof.
  intros H. unfold full_refine_item in H. cbn [after]. destruct (it_geom it); injection H as <- <- <-.
  all: split; [|split]; [split; [lia|]|split; [lia|]|rewrite ?Z.add_0_r; reflexivity].
  all: try (left; split; reflexivity).
  all: right; eexists; (split; [rewrite map_rev, map_map; reflexivity|reflexivity]).
Qed.

Lemma own_In f id n it l n' i : own f id n it l n' -> In i (map f l) -> i = id \/ (n <= i < n')%Z.
Proof.
  intros [_ [[E _]|(k & E & ->)]] H; rewrite E in H.
  - destruct H as [H|[]]. left. now symmetry.
  - right. apply in_rev in H. apply in_map_iff in H. destruct H as (j & <- & H). apply in_seq in H. lia.
Qed.
Lemma own_NoDup f id n it l n' : own f id n it l n' -> NoDup (map f l).
Proof.
  intros [_ [[E _]|(k & E & _)]]; rewrite E.
  - constructor; [intros []|constructor].
  - apply NoDup_rev, seq_ids.
Qed.

Section Ids.
Variable f : gprim -> Z.
Variable gid : item -> Z.
Variable pick : Z * Z -> Z.
Hypothesis step : forall it ns np l ns' np', full_refine_item it ns np = (l, ns', np') ->
  own f (gid it) (pick (ns, np)) it l (pick (ns', np')).
Lemma ids_all l : forall ns np, NoDup (map gid l) -> (forall it, In it l -> (gid it < pick (ns, np))%Z) ->
  NoDup (map f (full_refine_items l ns np)) /\
  (forall i, In i (map f (full_refine_items l ns np)) -> In i (map gid l) \/ (pick (ns, np) <= i)%Z) /\
  (forall i, In i (map f (full_refine_items l ns np)) -> (i < pick (after l ns np))%Z) /\
  (pick (ns, np) <= pick (after l ns np))%Z.
Proof.
  induction l as [|it l IH]; intros ns np ND LT.
  - cbn. split; [constructor|]. split; [intros i []|]. split; [intros i []|]. lia.
  - cbn [full_refine_items]. destruct (full_refine_item it ns np) as [[ps ns'] np'] eqn:E.
    pose proof (step _ _ _ _ _ _ E) as O. pose proof (item_ids _ _ _ _ _ _ E) as (_ & _ & A). cbn [after] in A.
    assert (AE : after (it :: l) ns np = after l ns' np') by (injection A as -> ->; reflexivity). rewrite AE.
    cbn [map] in ND. inversion ND as [|? ? NI ND']; subst.
    assert (LE : (pick (ns, np) <= pick (ns', np'))%Z) by apply O.
    destruct (IH ns' np' ND') as (D & M & U & W). { intros it' H. specialize (LT it' (or_intror H)). lia. }
    pose proof (LT it (or_introl eq_refl)) as Lit.
    rewrite map_app. split; [|split; [|split]].
    + apply NoDup_app_i; [eapply own_NoDup; exact O|exact D|].
      intros i H1 H2. apply (own_In _ _ _ _ _ _ _ O) in H1. apply M in H2. destruct H1 as [->|H1], H2 as [H2|H2]; try contradiction; try lia.
      apply in_map_iff in H2. destruct H2 as (it' & <- & H2). specialize (LT it' (or_intror H2)). lia.
    + intros i H. apply in_app_or in H. destruct H as [H|H].
      * apply (own_In _ _ _ _ _ _ _ O) in H. cbn [map]. destruct H as [->|H]; [left; now left|right; lia].
      * apply M in H. cbn [map]. destruct H as [H|H]; [left; now right|right; lia].
    + intros i H. apply in_app_or in H. destruct H as [H|H].
      * apply (own_In _ _ _ _ _ _ _ O) in H. destruct H as [->|H]; lia.
      * apply U; exact H.
    + lia.
Qed.
End Ids.

Theorem C259_identifiers (items : list item) (ns np : Z) :
  NoDup (map it_shape_id items) -> NoDup (map it_id items) ->
  (forall it, In it items -> (it_shape_id it < ns)%Z /\ (it_id it < np)%Z) ->
  let prims := full_refine_items items ns np in
  NoDup (map gp_shape_id prims) /\ NoDup (map gp_id prims) /\
  (forall p, In p prims -> (gp_shape_id p < fst (after items ns np))%Z /\ (gp_id p < snd (after items ns np))%Z).
Proof.
  intros N1 N2 B prims.
  destruct (ids_all gp_shape_id it_shape_id fst (fun it a b l a' b' H => proj1 (item_ids it a b l a' b' H)) items ns np N1
             (fun it H => proj1 (B it H))) as (D1 & _ & U1 & _).
  destruct (ids_all gp_id it_id snd (fun it a b l a' b' H => proj1 (proj2 (item_ids it a b l a' b' H))) items ns np N2
             (fun it H => proj2 (B it H))) as (D2 & _ & U2 & _).
  split; [exact D1|]. split; [exact D2|]. intros p H. split; [apply U1|apply U2]; apply in_map; exact H.
Qed.
Print Assumptions C259_identifiers.
(** a scene of a sphere and two meshes meets the hypotheses *)
Definition c259_items : list item :=
  let b := mkBase t_identity t_identity false in
  let m := GMesh b [0; 1; 2; 2; 1; 3]%Z [mkV 0 0 0; mkV 1 0 0; mkV 0 1 0; mkV 1 1 0] None None None in
  [mkItem m 1 1 0 None; mkItem (GSphere b 1 (-1) 1 360) 2 2 0 None; mkItem m 3 3 0 None].
Example C259_ex : NoDup (map it_shape_id c259_items) /\ NoDup (map it_id c259_items) /\
  (forall it, In it c259_items -> (it_shape_id it < 4)%Z /\ (it_id it < 4)%Z) /\
  map gp_id (full_refine_items c259_items 4 4) = [5; 4; 2; 7; 6]%Z.
Proof.
  split; [|split; [|split]].
  - cbn. repeat constructor; cbn; lia.
  - cbn. repeat constructor; cbn; lia.
  - intros it H. cbn in H. destruct H as [<-|[<-|[<-|[]]]]; cbn; lia.
  - reflexivity.
Qed.

(** ** C168: the pinhole ray starts at the film point itself and has no end *)
Theorem C168_range (c2w : animated) (focal : R) (s : sample) :
  let r := pinhole_ray c2w focal s in
  ro r = t_point (a_t1 c2w) (mkV (imageX s) (imageY s) 0) /\ ray_at r 0 = ro r /\
  rmint r = Fin 0 /\ rmaxt r = PInf.
Proof.
  intros r. split; [reflexivity|]. split; [|split; reflexivity].
  unfold ray_at. apply V3_eq; unfold vadd, vscale, vmap2, vmap; cbn [vx vy vz]; ring.
Qed.
Print Assumptions C168_range.

(** ** C70: reversing the orientation of a disk negates the normal of every sampled point and keeps the point *)
Theorem C70_reversed_partial (b : base) (h r ri pm u1 u2 : R) :
  let d1 := disk_make (mkBase (b_o2w b) (b_w2o b) true) h r ri pm in
  let d0 := disk_make (mkBase (b_o2w b) (b_w2o b) false) h r ri pm in
  fst (disk_sample d1 u1 u2) = fst (disk_sample d0 u1 u2) /\
  vadd (snd (disk_sample d1 u1 u2)) (snd (disk_sample d0 u1 u2)) = vzero.
Proof.
  intros d1 d0. split; [reflexivity|]. unfold disk_sample, d1, d0, disk_make; cbn [dk_base b_ro b_o2w snd].
  change (disk_sample_obj (mkDisk (mkBase (b_o2w b) (b_w2o b) true) h r ri (phi_max_of pm)) u1 u2)
    with (disk_sample_obj (mkDisk (mkBase (b_o2w b) (b_w2o b) false) h r ri (phi_max_of pm)) u1 u2).
  apply V3_eq; unfold vadd, vscale, vmap2, vmap, vzero; cbn [vx vy vz]; ring.
Qed.
Print Assumptions C70_reversed_partial.

(** ** C260: what the roughness of plastic, metal and uber materials means *)
From Verif Require Import M_MonteCarlo M_Reflection S_Reflection P_Reflection M_Material S_Material P_Material P_Material4.
Import ListNotations.
(** the microfacet density for roughness [r]: the power of the half vector's cosine is 1/r, at most 10000 *)
Definition rough_like (r : R) (d : mdist) : Prop :=
  let e := Rmin (1 / r) 10000 in
  forall wh, vz wh <> 0 -> mdist_D d wh = (e + 2) / (2 * PI) * Rpower (Rabs (vz wh)) e.
Lemma blinn_rough r : 0 < r -> exists d, blinn_of r = Ok d /\ rough_like r d.
Proof.
  intros H. unfold blinn_of. replace (Reqb r 0) with false by (symmetry; apply Reqb_false; lra).
  eexists. split; [reflexivity|]. intros wh W. unfold mdist_D, blinn_make, np_power, abs_cos_theta.
  destruct (Reqb (Rabs (vz wh)) 0) eqn:Q. { apply Reqb_true in Q. pose proof (Rabs_pos_lt _ W). lra. }
  field. apply PI_neq0.
Qed.
Theorem C260_plastic (kd ks : stex) (rough : ftex) (flip : bool) (g s : dgeom) :
  let q := at_hit flip s in 0 < rough q ->
  exists b d, get_bsdf (Plastic kd ks rough None) flip g s = Ok b /\ rough_like (rough q) d /\
    bs_bdfs b = [Lambertian (positive_part (kd q)); Microfacet (positive_part (ks q)) (FrDiel (3 / 2) 1) d].
Proof.
  intros q H. destruct (blinn_rough _ H) as (d & D & L). cbn [get_bsdf shading bind]. rewrite at_hit_copy. fold q. rewrite D. cbn [bind].
  eexists. exists d. split; [reflexivity|]. split; [exact L|]. rewrite !sclip_pos. reflexivity.
Qed.
Print Assumptions C260_plastic.
Theorem C260_metal (eta k : stex) (rough : ftex) (flip : bool) (g s : dgeom) :
  let q := at_hit flip s in 0 < rough q ->
  exists b d, get_bsdf (Metal eta k rough None) flip g s = Ok b /\ rough_like (rough q) d /\
    bs_bdfs b = [Microfacet (spec 1) (FrCond (eta q) (k q)) d].
Proof.
  intros q H. destruct (blinn_rough _ H) as (d & D & L). cbn [get_bsdf shading bind]. rewrite at_hit_copy. fold q. rewrite D. cbn [bind].
  eexists. exists d. split; [reflexivity|]. split; [exact L|]. reflexivity.
Qed.
Print Assumptions C260_metal.
Theorem C260_uber (kd ks kr kt : stex) (ro : ftex) (op : stex) (eta : ftex) (flip : bool) (g s : dgeom) :
  let q := at_hit flip s in let c := smul (positive_part (op q)) (positive_part (ks q)) in
  0 < ro q -> sblack c = false ->
  exists b d, get_bsdf (Uber kd ks kr kt ro op eta None) flip g s = Ok b /\ rough_like (ro q) d /\
    In (Microfacet c (FrDiel (eta q) 1) d) (bs_bdfs b).
Proof.
  intros q c H B. destruct (uber_shape kd ks kr kt ro op eta flip g s H) as (b & d & E & _ & _ & _ & _ & L & D). fold q c in L, D.
  destruct (blinn_rough _ H) as (d' & D' & R). rewrite D in D'. injection D' as ->.
  exists b, d'. split; [exact E|]. split; [exact R|]. rewrite L, B. cbn [opt_lobe].
  apply in_or_app. right. apply in_or_app. right. apply in_or_app. left. now left.
Qed.
Print Assumptions C260_uber.
(** the smoother, the more concentrated; two numbers: roughness 1/10 has exponent 10, roughness 1/100000 has 10000 *)
Example C260_ex : Rmin (1 / (1/10)) 10000 = 10 /\ Rmin (1 / (1/100000)) 10000 = 10000.
Proof. unfold Rmin. split; destruct Rle_dec; lra. Qed.

From Verif Require Import S_Shapes P_ShapesMore2.
(** C75: primitives take their identifiers from their own class-wide counter, in creation order, without gaps *)
Theorem C75_primitive_ids (k : nat) (c : Z) : NoDup (make_ids prim_new k c) /\
  forall j, (j < k)%nat -> nth_error (make_ids prim_new k c) j = Some (c + Z.of_nat j)%Z.
Proof. split; [now apply P_ShapesMore2.ids_distinct|now apply P_ShapesMore2.ids_in_order]. Qed.
Print Assumptions C75_primitive_ids.
