(** Step functions of documents. *)
From Coq Require Import List ZArith Bool Ascii String.
From Verif Require Import Text StepFunctionModel StepFunctionSpec StepFunctionProofs SxfmModel XmlModel.
Import ListNotations.
Local Open Scope string_scope.
Local Open Scope list_scope.

Lemma read_step_exact {D} (A : arith D) value t :
  (forall f, denotes value t f -> read_step A value t = SxDone (Some (next_int A f))) /\
  (read_step A value t = SxUndefined <-> t = [] \/ misread t) /\
  ((forall f, ~ denotes value t f) -> t <> [] -> ~ misread t -> read_step A value t = SxDone None).
Proof.
  unfold read_step. split; [|split].
  - intros f Df. apply parse_step_spec in Df. rewrite Df. reflexivity.
  - rewrite <- (parse_step_undef value). destruct (parse_step value t); split; congruence.
  - intros N Ne Nm. destruct (parse_step value t) as [f| |] eqn:E; [destruct (N f); apply parse_step_spec; exact E|reflexivity|].
    apply parse_step_undef in E. destruct E; contradiction.
Qed.
Lemma step_examples : exists (A : arith Z) value g, read_step A value (T "x + 3") = SxDone (Some g) /\ g 4%Z = Some 7%Z /\
  read_step A value (T "x + y") = SxDone None /\ read_step A value [] = SxUndefined.
Proof.
  exists (Arith Z Z.add Z.mul Z.pow (fun z => z) (fun z => Some z)), (fun t => Z.of_nat (List.length t + 2)).
  eexists. split; [vm_compute; reflexivity|]. split; [vm_compute; reflexivity|]. split; vm_compute; reflexivity.
Qed.
