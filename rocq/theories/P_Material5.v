From Coq Require Import String.
From Coq Require Import Reals Lra Lia List ZArith Bool.
From Verif Require Import Base M_Geometry S_Geometry M_Shapes M_Reflection S_Reflection P_Reflection3 M_Material S_Material.
Import ListNotations.
Open Scope R_scope.

Lemma numbers_map l : numbers (map Num l) = Ok l.
Proof. induction l; cbn [map numbers]; [reflexivity|]. now rewrite IHl. Qed.
Lemma file_spells lines v : spells lines v -> file_values lines = Ok v.
Proof.
  induction 1 as [|lines v H IH|rest lines v H IH|nums lines v NE H IH]; cbn [file_values]; auto.
  destruct nums as [|x nums]; [congruence|]. cbn [map]. change (Num x :: map Num nums) with (map Num (x :: nums)).
  rewrite numbers_map, IH. reflexivity.
Qed.
Definition decode (conv : list R -> list R -> vec) (wls : list R) (s : msample) : vec * vec :=
  (brdf_remap (dir_of (ms_tho s) (ms_pho s)) (dir_of (ms_thi s) (ms_phi s)), conv wls (ms_vals s)).
Definition flat (l : list msample) : list R :=
  flat_map (fun s => ms_thi s :: ms_phi s :: ms_tho s :: ms_pho s :: ms_vals s) l.
Lemma sample_loop_ok conv wls n l : List.Forall (fun s => length (ms_vals s) = n) l -> forall fuel, (length l <= fuel)%nat ->
  sample_loop conv fuel wls n (flat l) = Ok (map (decode conv wls) l).
Proof.
  induction 1 as [|s l H F IH]; intros fuel LF.
  - destruct fuel; reflexivity.
  - destruct fuel as [|fuel]; [cbn in LF; lia|]. cbn [flat flat_map app sample_loop]. fold (flat l).
    rewrite skipn_app, firstn_app. rewrite H, Nat.sub_diag, skipn_O, firstn_O, app_nil_r.
    rewrite (skipn_all2 (ms_vals s)) by lia. rewrite (firstn_all2 (ms_vals s)) by lia. cbn [app].
    rewrite IH by (cbn in LF; lia). cbn [bind map]. reflexivity.
Qed.
Lemma flat_length n l : List.Forall (fun s => length (ms_vals s) = n) l -> length (flat l) = (length l * (4 + n))%nat.
Proof. induction 1; cbn; [reflexivity|]. rewrite app_length. fold (flat l). rewrite IHForall, H. lia. Qed.
Lemma Ztrunc_INR n : Ztrunc (INR n) = Z.of_nat n.
Proof.
  unfold Ztrunc. destruct (Rle_dec 0 (INR n)) as [_|N]; [|pose proof (pos_INR n); lra].
  now rewrite Int_part_INR.
Qed.
Lemma read_encode conv wls l lines : List.Forall (fun s => length (ms_vals s) = length wls) l -> spells lines (encode wls l) ->
  read_brdf conv lines = Ok (map (decode conv wls) l).
Proof.
  intros F SP. unfold read_brdf. rewrite (file_spells _ _ SP). cbn [bind]. unfold encode. fold (flat l). cbv zeta.
  rewrite Ztrunc_INR. destruct (Z.of_nat (length wls) <? 0)%Z eqn:C; [apply Z.ltb_lt in C; lia|].
  cbn [length]. rewrite app_length, (flat_length _ _ F).
  assert (M : ((Z.of_nat (S (length wls + length l * (4 + length wls))%nat) - 1 - Z.of_nat (length wls)) mod (4 + Z.of_nat (length wls)) = 0)%Z).
  { replace (_ - 1 - _)%Z with (Z.of_nat (length l) * (4 + Z.of_nat (length wls)))%Z by lia. apply Z_mod_mult. }
  rewrite M. cbn [Z.eqb negb]. rewrite Nat2Z.id.
  rewrite firstn_app, skipn_app, Nat.sub_diag, firstn_all, skipn_all, firstn_O, skipn_O, app_nil_r. cbn [app].
  apply sample_loop_ok; [exact F|]. lia.
Qed.
Lemma read_malformed conv lines n rest : spells lines (INR n :: rest) ->
  ~ (exists k, length rest = (n + k * (4 + n))%nat) -> read_brdf conv lines = Err RuntimeError.
Proof.
  intros SP H. unfold read_brdf. rewrite (file_spells _ _ SP). cbn [bind]. cbv zeta. rewrite Ztrunc_INR.
  destruct (Z.of_nat n <? 0)%Z eqn:C; [apply Z.ltb_lt in C; lia|].
  destruct (_ mod _ =? 0)%Z eqn:M; [|reflexivity]. exfalso. apply Z.eqb_eq in M. apply H.
  cbn [length] in M. apply Z.mod_divide in M; [|lia]. destruct M as [k M]. exists (Z.to_nat k).
  assert (K0 : (0 <= k)%Z) by nia. nia.
Qed.
Lemma reg_get_fresh reg f : ~ In f (map fst reg) -> reg_get reg f = None.
Proof.
  induction reg as [|[k v] reg IH]; cbn; intros H; [reflexivity|]. destruct (String.eqb_spec f k); [subst; tauto|]. apply IH; tauto.
Qed.
Lemma measured_first conv fs reg dir file lines smp : ~ In file (map fst reg) -> fs dir file = Some lines ->
  read_brdf conv lines = Ok smp ->
  exists m reg', measured_make conv fs reg dir file = Ok (m, reg') /\
    forall query wo wi, measured_f query m wo wi = option_map fst (ir_f (query (map fst smp)) smp wo wi 16).
Proof.
  intros FR EX RD. unfold measured_make. rewrite (reg_get_fresh _ _ FR), EX, RD. cbn [bind]. eexists; eexists; split; [reflexivity|].
  reflexivity.
Qed.
Lemma measured_again conv fs reg dir file m reg' : measured_make conv fs reg dir file = Ok (m, reg') ->
  forall fs' dir', exists m', measured_make conv fs' reg' dir' file = Ok (m', reg') /\
    forall query wo wi, measured_f query m' wo wi = Some (Err TypeError).
Proof.
  intros H fs' dir'. assert (G : exists smp, reg_get reg' file = Some smp).
  { unfold measured_make in H. destruct (reg_get reg file) as [smp|] eqn:RG.
    - injection H as _ <-. eauto.
    - destruct (fs dir file); [|discriminate]. destruct (read_brdf conv l) as [smp|]; cbn [bind] in H; [|discriminate].
      injection H as _ <-. cbn [reg_get]. rewrite String.eqb_refl. eauto. }
  destruct G as [smp G]. unfold measured_make. rewrite G. eexists; split; [reflexivity|]. reflexivity.
Qed.
