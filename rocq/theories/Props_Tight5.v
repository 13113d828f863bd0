(** * Tightened statements, fifth part: written bytes position by position (C204). *)
From Coq Require Import Reals Lra Lia ZArith List Bool.
From Verif Require Import Base M_Film S_Film P_Film P_Film2 P_Film3.
Import ListNotations.
Open Scope R_scope.

(** [at_ d img y x]: the pixel in row [y] and column [x] *)
Definition at_ {A} (d : A) (img : list (list A)) (y x : nat) : A := nth x (nth y img []) d.
(** [there img y x]: the picture has that pixel *)
Definition there {A} (img : list (list A)) (y x : nat) : Prop := (y < length img)%nat /\ (x < length (nth y img []))%nat.
(** the three channels of a pixel and of the bytes written for it *)
Definition chans : list ((vec -> R) * (V3 Z -> Z)) := [(vx, vx); (vy, vy); (vz, vz)].
Definition zpix : V3 Z := mkV 0%Z 0%Z 0%Z.

Lemma there_in {A} (d : A) img y x : there img y x -> In (at_ d img y x) (concat img).
Proof. intros [H1 H2]. apply in_concat. exists (nth y img []). split; now apply nth_In. Qed.
Lemma to_bytes_at img y x c o : In (c, o) chans -> there img y x ->
  o (at_ zpix (to_bytes img) y x) = Ztrunc (norm_chan (chan_max c img) (c (at_ vzero img y x))).
Proof.
  intros I [H1 H2]. unfold at_, to_bytes. match goal with |- context [map (map ?g) img] => set (f := g) end.
  assert (E : nth y (map (map f) img) [] = map f (nth y img [])) by (change [] with (map f []) at 1; apply map_nth). rewrite E.
  rewrite (nth_indep (map f (nth y img [])) zpix (f vzero)) by (now rewrite map_length). rewrite map_nth.
  destruct I as [I|[I|[I|[]]]]; injection I as <- <-; reflexivity.
Qed.

(** for pixels present in the picture: the byte of a larger value in the same channel is not smaller,
    the largest value of a channel becomes 255 unless it is 0, and every byte is in range *)
Theorem C204_positions (img : list (list vec)) : nonneg_img img ->
  length (to_bytes img) = length img /\ (forall y, length (nth y (to_bytes img) []) = length (nth y img [])) /\
  forall c o, In (c, o) chans -> forall y x, there img y x ->
    let v := c (at_ vzero img y x) in let b := o (at_ zpix (to_bytes img) y x) in
    (0 <= b <= 255)%Z /\
    (forall y' x', there img y' x' -> c (at_ vzero img y' x') <= v -> (o (at_ zpix (to_bytes img) y' x') <= b)%Z) /\
    ((forall y' x', there img y' x' -> c (at_ vzero img y' x') <= v) -> 0 < v -> b = 255%Z) /\
    (v = 0 -> b = 0%Z).
Proof.
  intros NN. destruct (bytes_main img NN) as [RG CH].
  assert (L1 : length (to_bytes img) = length img) by (unfold to_bytes; now rewrite map_length).
  assert (L2 : forall y, length (nth y (to_bytes img) []) = length (nth y img [])).
  { intro y. unfold to_bytes. match goal with |- context [map (map ?g) img] => set (f := g) end.
    assert (E : nth y (map (map f) img) [] = map f (nth y img [])) by (change [] with (map f []) at 1; apply map_nth).
    rewrite E. now rewrite map_length. }
  split; [exact L1|]. split; [exact L2|]. intros c o I y x H v b.
  assert (C : c = vx \/ c = vy \/ c = vz) by (destruct I as [I|[I|[I|[]]]]; injection I as <- <-; auto).
  destruct (CH c C) as [MO BR].
  assert (B : b = Ztrunc (norm_chan (chan_max c img) v)) by (apply to_bytes_at; auto).
  assert (IB : In (at_ zpix (to_bytes img) y x) (concat (to_bytes img))).
  { apply there_in. split; [rewrite L1; apply H|rewrite L2; apply H]. }
  repeat split.
  - destruct (RG _ IB) as (A1 & A2 & A3). unfold byte in *. destruct I as [I|[I|[I|[]]]]; injection I as <- <-; unfold b; lia.
  - destruct (RG _ IB) as (A1 & A2 & A3). unfold byte in *. destruct I as [I|[I|[I|[]]]]; injection I as <- <-; unfold b; lia.
  - intros y' x' H' Q. rewrite (to_bytes_at img y' x' c o I H'). rewrite B. apply MO; auto; now apply there_in.
  - intros MX POS. destruct BR as (m & Im & Mm & E).
    { exists (at_ vzero img y x). split; [now apply there_in|exact POS]. }
    rewrite B. replace v with (c m); [exact E|]. apply Rle_antisym.
    + assert (exists y' x', there img y' x' /\ m = at_ vzero img y' x') as (y' & x' & H' & ->); [|now apply MX].
      apply in_concat in Im. destruct Im as (row & IR & IM).
      destruct (In_nth _ _ [] IR) as (y' & Hy & <-). destruct (In_nth _ _ vzero IM) as (x' & Hx & <-).
      exists y', x'. split; [split; auto|reflexivity].
    + apply Mm. now apply there_in.
  - intro Z0. rewrite B, Z0. assert (T0 : Ztrunc 0 = 0%Z) by (rewrite Ztrunc_nonneg by lra; apply (Zfloor_IZR 0)).
    unfold norm_chan. destruct (negb _); [replace (255 * 0 / chan_max c img) with 0 by (unfold Rdiv; ring)|]; exact T0.
Qed.
Print Assumptions C204_positions.
Example C204_positions_ex : nonneg_img [[mkV 1 2 0]; [mkV 0 3 0]] /\ there [[mkV 1 2 0]; [mkV 0 3 0]] 1 0.
Proof. split; [intros v [<-|[<-|[]]]; unfold vle; cbn; lra|split; cbn; lia]. Qed.
