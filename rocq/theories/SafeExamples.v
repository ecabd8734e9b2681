(** Example for careful use of the interface. *)
From Coq Require Import List ZArith Arith Bool Ascii String Permutation Lia.
From Verif Require Import Text TextProofs ConstraintModel ConstraintSpec SourceRangeModel FeatureTreeModel FeatureTreeSpec FeatureTreeProofs FeatureTransactionModel FeatureTransactionSpec FeatureEditSpec FeatureEditProofs FeatureOpsProofs FeatureGroupProofs FeatureTransactionFinal
  FeatureTransactionExamples FeatureBuildSpec FeatureBuildExamples XmlModel XmlSpec RegisterSpec SafeSpec SafeProofs SafeMadeSpec SafeFinal.
Import ListNotations.
Local Open Scope string_scope.
Local Open Scope list_scope.
Local Open Scope nat_scope.

(** The world after a modification without an error. *)
Definition after (o : op) (w : world) : world := match exec order o w with Some (w', None) => w' | _ => w end.
Definition fine (o : op) (w : world) : bool := match exec order o w with Some (_, None) => true | _ => false end.
Lemma careful_step o os w : fine o w = true -> allowed w o -> defined_op w o -> spares w o -> fresh_op o -> careful order (after o w) os -> careful order w (o :: os).
Proof.
  unfold fine, after. intros F A D S Fr C. constructor; try assumption. intros w' E. rewrite E in C. exact C.
Qed.
Definition bin (s : string) : feature := new_feature FBinary (T s) true [] [].
Definition excludes77 : cexpr cref := CBin BExcludes (CFeat (Own (T "a"))) (CFeat (Own (T "b"))).
(** Three features are added, two of them in the group of the third; these exclude each
    other; the root is renamed; a fourth one comes and goes. *)
Definition queue77 : list op := [OAddFeature (bin "g") None; OAddFeature (bin "a") (Some 1); OAddFeature (bin "b") (Some 1); OAddRelationship RAlternative (ByName (T "g"));
  OAddConstraint KBoolean excludes77; OSetRoot (T "base"); OAddFeature (bin "c") (Some 1); ORemoveFeature (ByName (T "c")) false].
Definition world77 : world := new_model heap0.
Definition world78 : world := fold_left (fun w o => after o w) queue77 world77.

Ltac cells := repeat match goal with
  | H : h_cells ?h ?i = Some _ |- _ => let v := eval vm_compute in (h_cells h i) in let X := fresh in assert (h_cells h i = v) as X by (vm_compute; reflexivity); rewrite X in H; clear X; first [discriminate H|injection H as H; subst]
  end.
Ltac knows := let X := fresh in intros X; match type of X with ?a = Some ?b => let v := eval vm_compute in a in let Y := fresh in assert (a = v) as Y by (vm_compute; reflexivity); rewrite Y in X; clear Y; first [discriminate X|injection X as X; subst] end.
Lemma queue77_careful : careful order world77 queue77.
Proof.
  unfold queue77.
  apply careful_step; [vm_compute; reflexivity|split; [discriminate|discriminate]|exact Logic.I|exact Logic.I|repeat split; reflexivity|].
  apply careful_step; [vm_compute; reflexivity|split; [discriminate|intros q E; injection E as <-; vm_compute; tauto]|exact Logic.I|exact Logic.I|repeat split; reflexivity|].
  apply careful_step; [vm_compute; reflexivity|split; [discriminate|intros q E; injection E as <-; vm_compute; tauto]|exact Logic.I|exact Logic.I|repeat split; reflexivity|].
  match goal with |- careful _ ?w _ => set (w3 := w) end.
  apply careful_step.
  { vm_compute; reflexivity. }
  { unfold allowed. rewrite (surjective_pairing w3). split; [exact Logic.I|]. intros p. knows. intros (x & N). inversion N as [? c ? cx C1 I1 C2 T2|? c y cy ? ? C1 I1 C2 T2 N2]; subst; cells; [|inversion N2].
    cbn [n_edges] in I1. destruct I1 as [<-|[<-|[]]]; cells; discriminate T2. }
  { unfold defined_op. rewrite (surjective_pairing w3). exists 1. vm_compute. reflexivity. }
  { unfold spares. rewrite (surjective_pairing w3). exact Logic.I. }
  { exact Logic.I. }
  apply careful_step.
  { vm_compute; reflexivity. }
  { match goal with |- allowed ?w _ => unfold allowed; rewrite (surjective_pairing w) end. exact Logic.I. }
  { match goal with |- defined_op ?w _ => unfold defined_op; rewrite (surjective_pairing w) end. intros i [E|[E|[]]]; discriminate E. }
  { match goal with |- spares ?w _ => unfold spares; rewrite (surjective_pairing w) end. intros r s [<-|[<-|[]]]; cbn [cref_name]; intros E; injection E as <-; [exists 2|exists 3]; vm_compute; reflexivity. }
  { exact Logic.I. }
  apply careful_step.
  { vm_compute; reflexivity. }
  { match goal with |- allowed ?w _ => unfold allowed; rewrite (surjective_pairing w) end. exact Logic.I. }
  { match goal with |- defined_op ?w _ => unfold defined_op; rewrite (surjective_pairing w) end. exact Logic.I. }
  { match goal with |- spares ?w _ => unfold spares; rewrite (surjective_pairing w) end. intros _ i. knows. intros (c & I1 & I2).
    match type of I1 with In _ ?l => let v := eval vm_compute in l in assert (l = v) as X by (vm_compute; reflexivity); rewrite X in I1 end. destruct I1 as [<-|[]]. cbn in I2. destruct I2 as [E|[E|[]]]; discriminate E. }
  { exact Logic.I. }
  apply careful_step.
  { vm_compute; reflexivity. }
  { match goal with |- allowed ?w _ => unfold allowed; rewrite (surjective_pairing w) end. split; [discriminate|intros q E; injection E as <-; vm_compute; tauto]. }
  { match goal with |- defined_op ?w _ => unfold defined_op; rewrite (surjective_pairing w) end. exact Logic.I. }
  { match goal with |- spares ?w _ => unfold spares; rewrite (surjective_pairing w) end. exact Logic.I. }
  { repeat split; reflexivity. }
  apply careful_step.
  { vm_compute; reflexivity. }
  { match goal with |- allowed ?w _ => unfold allowed; rewrite (surjective_pairing w) end. exact Logic.I. }
  { match goal with |- defined_op ?w _ => unfold defined_op; rewrite (surjective_pairing w) end. intros i. knows. knows. }
  { match goal with |- spares ?w _ => unfold spares; rewrite (surjective_pairing w) end. intros i j. knows. intros _ (c & I1 & I2) Re.
    match type of I1 with In _ ?l => let v := eval vm_compute in l in assert (l = v) as X by (vm_compute; reflexivity); rewrite X in I1 end. destruct I1 as [<-|[]]. cbn in I2. apply reaches_climbs with (k := 9) in Re.
    destruct I2 as [E|[E|[]]]; injection E as <-; vm_compute in Re; discriminate Re. }
  { exact Logic.I. }
  constructor.
Qed.
Lemma world77_made : made (fst world77) (snd world77).
Proof. exact (made_new heap0 _ _ _ _ heap0_ok). Qed.
Lemma careful_example : made (fst world77) (snd world77) /\ careful order world77 queue77 /\
  (let* (_, w, e) := commit_modify order (Mtx true queue77) world77 in Some (map fst (m_features (snd w)), map c_expr (m_boolean (snd w)), e)) =
  Some ([T "g"; T "a"; T "b"; T "base"], [CBin BExcludes (CFeat (Ref 2)) (CFeat (Ref 3))], None).
Proof. split; [exact world77_made|]. split; [exact queue77_careful|]. vm_compute. reflexivity. Qed.
(** Unknown names, and what is not there. *)
Lemma undefined_example : sound (fst world77) (snd world77) /\
  Forall (fun o => allowed world77 o /\ exec order o world77 = None)
    [ORemoveFeature (ByName (T "root")) false; OAddRelationship ROr (ByName (T "x")); ORemoveRelationship (ByName (T "root")); OAddConstraint KBoolean (CFeat (Ref 7))].
Proof.
  split; [exact (made_sound _ _ world77_made)|]. repeat apply Forall_cons; [| | | |constructor]; (split; [|vm_compute; reflexivity]).
  - exact Logic.I.
  - split; [exact Logic.I|]. intros p. knows.
  - split; [exact Logic.I|]. intros p k x. knows. intros N. inversion N as [? c ? cx C1 I1 C2 T2|? c y cy ? ? C1 I1 C2 T2 N2]; subst; cells; destruct I1.
  - exact Logic.I.
Qed.
Lemma not_defined : exists ord h m o, is_order ord /\ sound h m /\ allowed (h, m) o /\ exec ord o (h, m) = None.
Proof.
  destruct undefined_example as (S & F). exists order, (fst world77), (snd world77), (OAddRelationship ROr (ByName (T "x"))). rewrite <- surjective_pairing. split; [exact order_ok|]. split; [exact S|].
  inversion_clear F as [|? ? _ F']. inversion_clear F' as [|? ? P _]. exact P.
Qed.
