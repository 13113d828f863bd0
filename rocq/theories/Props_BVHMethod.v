(** Property theorem C07 (names of the split methods). *)
From Coq Require Import String.
From Verif Require Import Base M_BVH.

(** The constructor's (lower-cased) method name: "equal" and no other makes it raise; "middle" and no other selects the middle
    split; every other name, "sah" among them, selects the surface area heuristic. *)
Theorem C07_method_names (s : string) :
  (method_of s = Err AttributeError <-> s = "equal"%string) /\ (method_of s = Ok MIDDLE <-> s = "middle"%string) /\
  (method_of s = Ok SAH <-> s <> "equal"%string /\ s <> "middle"%string).
Proof.
  unfold method_of.
  destruct (String.eqb_spec s "sah") as [->|N1]; [repeat split; try discriminate; intros [A B]; reflexivity|].
  destruct (String.eqb_spec s "middle") as [->|N2]; [repeat split; try discriminate; intros; tauto|].
  destruct (String.eqb_spec s "equal") as [->|N3]; [repeat split; try discriminate; intros; tauto|].
  repeat split; try discriminate; intros; tauto.
Qed.
Print Assumptions C07_method_names.
(** a name the user may pass *)
Example C07_ex_names : method_of "surface area heuristic" = Ok SAH /\ method_of "sah" = Ok SAH.
Proof. split; apply C07_method_names; split; discriminate. Qed.
