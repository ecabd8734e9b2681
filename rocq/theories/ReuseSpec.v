(** What builders and readers do when used again. *)
From Coq Require Import List Bool.
From Verif Require Import Text FeatureTreeModel FeatureTransactionModel SxfmModel XmlModel ReuseModel.
Import ListNotations.

(** The calls before the first building, and the uses after it. *)
Fixpoint first_calls (us : list use) : list bcall := match us with UCall c :: r => c :: first_calls r | _ => [] end.
Fixpoint after_first (us : list use) : option (list use) :=
  match us with [] => None | UCall _ :: r => after_first r | UBuild :: r => Some r end.
(** How often a model was asked for. *)
Fixpoint builds (us : list use) : nat := match us with [] => 0 | UCall _ :: r => builds r | UBuild :: r => S (builds r) end.

(** Relationships and constraints are taken even when nothing becomes of them. *)
Definition unchecked (u : use) : Prop :=
  match u with UCall (BRelationship _ _) | UCall (BConstraint _ _) | UBuild => True | _ => False end.

(** A builder that has neither built nor failed to. *)
Definition open_builder (b : builder) : Prop := t_open (b_features b) = true /\ t_open (b_tree b) = true /\ t_open (b_relations b) = true.
(** A reader that has not come to building yet: the calls were made on its builder. *)
Inductive begun (h : heap) : heap -> reader -> Prop :=
| begun_at cs b : fold_left (fun o c => let* b := o in builder_call b c) cs (Some (snd (builder_start h))) = Some b ->
    begun h (fst (builder_start h)) (Reader b cs).
