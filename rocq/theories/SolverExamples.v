(** A model for the solver and an oracle that tries finitely many assignments. *)
From Coq Require Import List ZArith Arith Bool Ascii String Permutation Lia.
From Coq Require Import ZifyBool.
From Verif Require Import Text TextProofs ConstraintModel ConstraintSpec SourceRangeModel StepFunctionModel StepFunctionSpec ConfigurationModel FeatureTreeModel FeatureTreeSpec
  FeatureTreeProofs FeatureTreeExamples FeatureTransactionModel FeatureEditSpec FeatureEditProofs FeatureTransactionExamples FeatureBuildSpec
  SolverModel SolverSpec SolverProofs SolverLoadProofs SolverEncodingProofs SolverEnumerationProofs SolverFinal.
Import ListNotations.
Local Open Scope string_scope.
Local Open Scope list_scope.

(** An oracle that tries a list of assignments. *)
Definition trying (l : list assignment) (ts : list bterm) : option assignment := find (fun a => forallb (beval a) ts) l.
Lemma trying_decides l vs ts :
  (forall a, satisfies a ts -> exists b, In b l /\ same_values vs a b /\ satisfies b ts) -> decides (trying l) vs ts.
Proof.
  intros H us U. unfold trying.
  assert (F : forall a ts, forallb (beval a) ts = true <-> satisfies a ts) by (intros a0 us0; apply forallb_forall).
  destruct (find (fun a => forallb (beval a) (ts ++ us)) l) as [a|] eqn:E.
  - apply find_some in E. apply F, E.
  - intros a Sa. apply satisfies_app in Sa. destruct Sa as (Sa & Su). destruct (H a Sa) as (b & I & Sv & Sb).
    pose proof (find_none _ _ E b I) as N. assert (X : forallb (beval b) (ts ++ us) = true); [|congruence].
    apply F. apply satisfies_app. split; [exact Sb|]. intros u Iu. destruct (U u Iu) as (c & Ex). apply Ex. specialize (Su u Iu). apply Ex in Su.
    intros Q. apply Su. intros n t J. specialize (Q n t J). specialize (Sv n t J). destruct t; congruence.
Qed.

(** Root r with an alternative group of a and b, a mandatory c, and n in {1, 2, 4};
    b excludes c or n is larger than 1; a + n < 4 if a is selected. *)
Definition double : Z -> option Z := fun x => Some (2 * x)%Z.
Definition num9 : feature := new_feature (FNumeric (VRange 1 4) (Some double)) (T "n") true [] [].
Definition tree9 : tree :=
  Node 0 (rootd "r") [Node 1 (NRelationship RAlternative) [Node 2 (binary "a") []; Node 3 (binary "b") []]; Node 4 (NFeature num9) []; Node 5 (binary "c") []].
Definition heap9 : heap := plant 6 tree9.
Definition model9 : fmodel := FModel (T "m") (Some 0) (T "p") [] (named tree9)
  [MConstraint 100 (CBin BImplies (CFeat (Ref 3)) (CFeat (Own (T "c"))))]
  [MConstraint 101 (CBin BGreater (CFeat (Ref 4)) (CInt 1))]
  [Mixed (MConstraint 102 (CBin BLess (CBin BAdd (CFeat (Ref 2)) (CFeat (Ref 4))) (CInt 4))) ReqAll ExprPos] [1].
Lemma represents9 : represents heap9 model9 tree9.
Proof. assert (represents heap9 (model_of tree9) tree9) as R by planted. destruct R; constructor; assumption. Qed.

Lemma stored9 i f : stored heap9 model9 i f ->
  (i = 0 /\ f = root_feature (T "r")) \/ (i = 2 /\ f = new_feature FBinary (T "a") false [] []) \/ (i = 3 /\ f = new_feature FBinary (T "b") false [] []) \/
  (i = 4 /\ f = num9) \/ (i = 5 /\ f = new_feature FBinary (T "c") false [] []).
Proof.
  intros (I & F). vm_compute in I.
  destruct I as [<-|[<-|[<-|[<-|[<-|[]]]]]]; injection F as <-; auto 6.
Qed.
Lemma supported9 : supported heap9 model9.
Proof.
  constructor.
  - intros i f Sf. destruct (stored9 i f Sf) as [(_ & ->)|[(_ & ->)|[(_ & ->)|[(_ & ->)|(_ & ->)]]]]; discriminate.
  - intros i f p g r Sf K (c & C & Hg) Fg.
    assert (P : p = 0).
    { destruct (stored9 i f Sf) as [(-> & ->)|[(-> & ->)|[(-> & ->)|[(-> & ->)|(-> & ->)]]]]; try discriminate; injection C as <-; cbn in Hg;
        (destruct r as [k|]; [destruct Hg as (q & cq & Eq & Cq & Dq & Pq); injection Eq as <-; injection Cq as <-; try discriminate; injection Pq as <-; reflexivity|injection Hg as <-; try reflexivity; discriminate]). }
    subst p. injection Fg as <-. reflexivity.
  - intros n ns (q & p & e & Iq & C & _ & F2) ->. destruct Iq as [<-|[]]. injection C as _ <-. inversion F2.
  - intros i f v step Sf K. destruct (stored9 i f Sf) as [(_ & ->)|[(_ & ->)|[(_ & ->)|[(_ & ->)|(_ & ->)]]]]; try discriminate. injection K as <- <-.
    right. exists double, [1; 2; 4]%Z, 8%Z. split; [reflexivity|]. split; [|split; [|lia]].
    + assert (iterates double 1 [] 1) as I0 by constructor. assert (iterates double 1 [1]%Z 2) as I1 by exact (It_next double 1 [] 1%Z 2%Z I0 eq_refl).
      assert (iterates double 1 [1; 2]%Z 4) as I2 by exact (It_next double 1 [1]%Z 2%Z 4%Z I1 eq_refl). exact (It_next double 1 [1; 2]%Z 4%Z 8%Z I2 eq_refl).
    + repeat constructor; lia.
  - intros c [<-|[<-|[]]] a; eexists; reflexivity.
  - intros x [<-|[]] a. eexists. reflexivity.
Qed.
Lemma no_xor9 : no_xor model9.
Proof. intros e [<-|[<-|[<-|[]]]]; cbn; repeat (split; try discriminate). Qed.

(** The loaded solver. *)
Definition solver9 : solver := match load order 5 heap9 model9 with Some s => s | None => new_solver end.
Lemma loaded9 : load order 5 heap9 model9 = Some solver9.
Proof. vm_compute. reflexivity. Qed.
Lemma reached9 : reached solver9.
Proof. exact (load_reached _ _ _ _ _ loaded9). Qed.

Definition asg9 (r a b c : bool) (n : Z) : assignment :=
  Assignment (fun s => if text_eqb s (T "r") then r else if text_eqb s (T "a") then a else if text_eqb s (T "b") then b else if text_eqb s (T "c") then c else false) (fun _ => n) (fun _ => 0%Z).
Definition bools : list bool := [true; false].
Definition tried9 : list assignment :=
  flat_map (fun r => flat_map (fun a => flat_map (fun b => flat_map (fun c => map (asg9 r a b c) [1; 2; 4]%Z) bools) bools) bools) bools.
Lemma decides9 : decides (trying tried9) (s_vars solver9) (s_asserted solver9).
Proof.
  apply trying_decides. intros a Sa. exists (asg9 (a_bool a (T "r")) (a_bool a (T "a")) (a_bool a (T "b")) (a_bool a (T "c")) (a_int a (T "n"))). split; [|split].
  - assert (B : forall b, In b bools) by (intros []; [left|right; left]; reflexivity).
    assert (In (a_int a (T "n")) [1; 2; 4]%Z) as I.
    { assert (In (a_int a (T "n")) [4; 2; 1]%Z) as I; [|cbn in *; tauto]. apply (one_of_eval a (T "n") [4; 2; 1]%Z). apply Sa.
      vm_compute. repeat (first [left; reflexivity|right]). }
    unfold tried9. do 4 (apply in_flat_map; eexists; split; [apply B|]). apply in_map. exact I.
  - intros n t I. vm_compute in I. destruct I as [I|[I|[I|[I|[I|[]]]]]]; injection I as <- <-; reflexivity.
  - intros t It. specialize (Sa t It). refine (eq_trans _ Sa). clear Sa. vm_compute in It. repeat (destruct It as [<-|It]; [reflexivity|]). destruct It.
Qed.

Lemma enumeration_example :
  represents heap9 model9 tree9 /\ supported heap9 model9 /\ no_xor model9 /\ load order 5 heap9 model9 = Some solver9 /\ reached solver9 /\
  decides (trying tried9) (s_vars solver9) (s_asserted solver9) /\
  map fst (s_vars solver9) = [T "r"; T "a"; T "b"; T "c"; T "n"] /\
  (let* r := get_all (trying tried9) 9 solver9 in
   match r with inl l => Some (map (fun c => (option_value c (T "a"), option_value c (T "b"), option_value c (T "n"))) l) | inr _ => None end) =
    Some [(Some (T "true"), Some (T "false"), Some (T "2")); (Some (T "false"), Some (T "true"), Some (T "2")); (Some (T "false"), Some (T "true"), Some (T "4"))] /\
  get_num (trying tried9) 9 solver9 = Some (inl 3) /\
  option_map (@List.length _) (get_n (trying tried9) 9 2 solver9) = Some 2 /\ option_map (@List.length _) (get_n (trying tried9) 9 7 solver9) = Some 3.
Proof.
  split; [exact represents9|]. split; [exact supported9|]. split; [exact no_xor9|]. split; [exact loaded9|]. split; [exact reached9|]. split; [exact decides9|].
  repeat split; vm_compute; reflexivity.
Qed.

(** A model without valid configuration: the mandatory c excludes itself from r. *)
Definition solver10 : solver := assert_term (assert_term (add_option new_solver (T "r") SBool) (TVar (T "r"))) (TNot (TVar (T "r"))).
Definition tree10 : tree := Node 0 (rootd "r") [].
Definition model10 : fmodel := FModel (T "m") (Some 0) [] [] (named tree10) [MConstraint 100 (CUn UNot (CFeat (Own (T "r"))))] [] [] [].
Lemma represents10 : represents (plant 1 tree10) model10 tree10.
Proof. assert (represents (plant 1 tree10) (model_of tree10) tree10) as R by planted. destruct R; constructor; assumption. Qed.
Lemma loaded10 : load order 0 (plant 1 tree10) model10 = Some solver10.
Proof. vm_compute. reflexivity. Qed.
Lemma unsat10 a : ~ satisfies a (s_asserted solver10).
Proof. intros Sa. pose proof (Sa _ (or_introl eq_refl)) as A. pose proof (Sa _ (or_intror (or_introl eq_refl))) as B. cbn in A, B. rewrite A in B. discriminate. Qed.
Lemma decides10 : decides (trying []) (s_vars solver10) (s_asserted solver10).
Proof. apply trying_decides. intros a Sa. destruct (unsat10 a Sa). Qed.
Lemma reached10 : reached solver10.
Proof. exact (load_reached _ _ _ _ _ loaded10). Qed.
Lemma is_valid_refuted : exists ord fuel h m t check s,
  is_order ord /\ represents h m t /\ load ord fuel h m = Some s /\ decides check (s_vars s) (s_asserted s) /\
  (forall a, ~ satisfies a (s_asserted s)) /\ is_valid check s = true.
Proof.
  exists order, 0, (plant 1 tree10), model10, tree10, (trying []), solver10. split; [exact order_ok|]. split; [exact represents10|]. split; [exact loaded10|].
  split; [exact decides10|]. split; [exact unsat10|reflexivity].
Qed.
Lemma unsat_example :
  reached solver10 /\ decides (trying []) (s_vars solver10) (s_asserted solver10) /\ (forall a, ~ satisfies a (s_asserted solver10)) /\
  get_all (trying []) 1 solver10 = Some (inr Unsat) /\ get_n (trying []) 1 3 solver10 = Some [] /\ has_valid (trying []) solver10 = inl false.
Proof. split; [exact reached10|]. split; [exact decides10|]. split; [exact unsat10|]. repeat split; vm_compute; reflexivity. Qed.
Lemma validity_example :
  has_valid (trying tried9) solver9 = inl true /\ has_valid (trying tried9) (fst (get_next (trying tried9) solver9)) = inr IllegalState /\
  result_bool (snd (get_next (trying tried9) solver9)) = true.
Proof. repeat split; vm_compute; reflexivity. Qed.

(** Refused calls. *)
Lemma refused_example :
  stored heap9 model9 2 (new_feature FBinary (T "a") false [] []) /\ hangs heap9 2 0 (Some RAlternative) /\
  add_feature 5 heap9 2 true new_solver = Some (new_solver, Some ParentNotPresent) /\
  add_feature 5 heap9 2 true solver9 = Some (solver9, Some AlreadyPresent).
Proof.
  split; [split; [vm_compute; auto|reflexivity]|]. split; [|split; vm_compute; reflexivity].
  eexists. split; [reflexivity|]. exists 1. eexists. split; [reflexivity|]. split; [reflexivity|]. split; reflexivity.
Qed.

(** Constraints. *)
Definition mixed9 : cexpr cref := CBin BLess (CBin BAdd (CFeat (Ref 2)) (CFeat (Ref 4))) (CInt 4).
Lemma mixed_example :
  well_typed heap9 true mixed9 /\ xor_free mixed9 /\
  mixed_holds heap9 (asg9 true false true true 4) mixed9 ExprPos ReqAll /\ ~ mixed_holds heap9 (asg9 true false true true 4) mixed9 ExprPos ReqNone /\
  mixed_holds heap9 (asg9 true true false true 4) mixed9 ExprNeg ReqNone.
Proof.
  split; [intros a; eexists; reflexivity|]. split; [cbn; repeat (split; try discriminate)|]. split; [|split].
  - right. split; [reflexivity|]. exists (Ref 2), (T "a"). split; [left; reflexivity|]. split; [|reflexivity]. eexists. split; [reflexivity|]. split; reflexivity.
  - intros [H|(H & _)]; [|discriminate]. vm_compute in H. discriminate.
  - left. reflexivity.
Qed.
Definition xor9 : cexpr cref := CBin BXor (CFeat (Ref 2)) (CUn UNot (CFeat (Own (T "c")))).
Lemma xor_example : well_typed heap9 false xor9 /\ xor_free (CFeat (Ref 2)) /\ xor_free (CUn UNot (CFeat (Own (T "c")))) /\
  value_of heap9 false (asg9 true false true true 4) xor9 = Some (Truth false) /\ value_of heap9 false (asg9 true true true true 4) xor9 = Some (Truth true).
Proof. split; [intros a; eexists; reflexivity|]. repeat split; reflexivity. Qed.

(** A negative value. *)
Lemma negative_example : option_value (configuration [(T "n", SInt)] (asg9 true true true true (-3))) (T "n") = Some (T "(- 3)").
Proof. vm_compute. reflexivity. Qed.
