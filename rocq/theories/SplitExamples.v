(** Splitting the configurations of the model of [SolverExamples]. *)
From Coq Require Import List ZArith Bool Arith Ascii String Lia.
From Verif Require Import Text ConstraintModel ConstraintSpec StepFunctionModel ConfigurationModel FeatureTreeModel FeatureTreeSpec FeatureTreeExamples FeatureTransactionModel FeatureTransactionExamples FeatureEditSpec FeatureBuildSpec
  SolverModel SolverSpec SolverExamples XmlModel XmlSpec EditValidSpec SplitSpec SplitProofs SplitFinal.
Import ListNotations.
Local Open Scope list_scope.
Local Open Scope string_scope.

(** As [model9], with all mentions resolved. *)
Definition model93 : fmodel := with_boolean model9 [MConstraint 100 (CBin BImplies (CFeat (Ref 3)) (CFeat (Ref 5)))].
Lemma represents93 : represents heap9 model93 tree9.
Proof. destruct represents9. constructor; assumption. Qed.
Lemma supported93 : supported heap9 model93.
Proof.
  destruct supported9 as [A B C D E F]. constructor; try assumption. intros c [<-|[<-|[]]] a; eexists; reflexivity.
Qed.
Lemma no_xor93 : no_xor model93.
Proof. intros e [<-|[<-|[<-|[]]]]; cbn; repeat (split; try discriminate). Qed.
Lemma resolved93 : all_resolved model93.
Proof.
  intros c r [<-|[<-|[<-|[]]]] I; cbn in I; repeat (destruct I as [<-|I]; [first [exists (T "b"), 3; split; reflexivity|exists (T "c"), 5; split; reflexivity|exists (T "n"), 4; split; reflexivity|exists (T "a"), 2; split; reflexivity]|]); destruct I.
Qed.
Definition chosen_a : cexpr cref := CFeat (Own (T "a")).
Definition large_n : cexpr cref := CBin BGreaterEqual (CFeat (Own (T "n"))) (CInt 4).
Lemma names93 : mentions_names model93 chosen_a /\ mentions_names model93 large_n.
Proof. split; intros r [<-|[]]; [exists (T "a"), 2|exists (T "n"), 4]; split; reflexivity. Qed.
Lemma said93 : well_said heap9 model93 KBoolean chosen_a /\ well_said heap9 model93 KNonBoolean large_n /\ forall r e, well_said heap9 model93 (KMixed r e) large_n.
Proof. split; [intros a; eexists; reflexivity|]. split; [intros a; eexists; reflexivity|]. intros r e a. eexists. reflexivity. Qed.

(** The number of configurations found by trying after a constraint was added. *)
Definition tried_number (k : ckind) (c : cexpr cref) : option (outcome nat) :=
  let* (w, e) := exec order (OAddConstraint k c) (heap9, model93) in
  let* s := load order 5 (fst w) (snd w) in get_num (trying tried9) 9 s.
Lemma split_example :
  is_order order /\ represents heap9 model93 tree9 /\ all_resolved model93 /\ supported heap9 model93 /\ no_xor model93 /\
  (mentions_names model93 chosen_a /\ mentions_names model93 large_n) /\
  (well_said heap9 model93 KBoolean chosen_a /\ well_said heap9 model93 KNonBoolean large_n /\ forall r e, well_said heap9 model93 (KMixed r e) large_n) /\
  (xor_free chosen_a /\ xor_free large_n) /\ (without_division chosen_a /\ without_division large_n) /\
  (let* s := load order 5 heap9 model93 in get_num (trying tried9) 9 s) = Some (inl 3) /\
  tried_number KBoolean chosen_a = Some (inl 1) /\ tried_number KBoolean (CUn UNot chosen_a) = Some (inl 2) /\
  tried_number (KMixed ReqNone ExprPos) large_n = Some (inl 1) /\ tried_number (KMixed ReqNone ExprNeg) large_n = Some (inl 2) /\
  tried_number KBoolean (CFeat (Own (T "r"))) = Some (inl 3) /\ tried_number KBoolean (CUn UNot (CFeat (Own (T "r")))) = Some (inr Unsat).
Proof.
  split; [exact order_ok|]. split; [exact represents93|]. split; [exact resolved93|]. split; [exact supported93|]. split; [exact no_xor93|]. split; [exact names93|]. split; [exact said93|].
  split; [cbn; repeat (split; try discriminate)|]. split; [cbn; repeat (split; try discriminate)|]. repeat split; vm_compute; reflexivity.
Qed.

(** Root r with z = 0, and 1 / z = 1. *)
Definition zero_z : feature := new_feature (FNumeric (VList [0%Z]) None) (T "z") true [] [].
Definition tree94 : tree := Node 0 (rootd "r") [Node 1 (NFeature zero_z) []].
Definition quotient_one : cexpr cref := CBin BEqual (CBin BDiv (CInt 1) (CFeat (Own (T "z")))) (CInt 1).
Lemma represents94 : represents (plant 2 tree94) (model_of tree94) tree94.
Proof. planted. Qed.
Definition divides94 (z : Z) : assignment := Assignment (fun _ => true) (fun _ => 0%Z) (fun _ => z).
Lemma stored94 i f : stored (plant 2 tree94) (model_of tree94) i f -> (i = 0 /\ f = root_feature (T "r")) \/ (i = 1 /\ f = zero_z).
Proof. intros (I & F). vm_compute in I. destruct I as [<-|[<-|[]]]; injection F as <-; auto. Qed.
Lemma supported94 : supported (plant 2 tree94) (model_of tree94).
Proof.
  constructor.
  - intros i f Sf. destruct (stored94 i f Sf) as [(_ & ->)|(_ & ->)]; discriminate.
  - intros i f p g r Sf K. destruct (stored94 i f Sf) as [(_ & ->)|(_ & ->)]; discriminate.
  - intros n ns (q & p & e & Iq & _). destruct Iq.
  - intros i f v step Sf K. destruct (stored94 i f Sf) as [(_ & ->)|(_ & ->)]; [discriminate|]. injection K as <- <-. exact Logic.I.
  - intros c [].
  - intros x [].
Qed.
Lemma valid94 z : SolverSpec.valid (plant 2 tree94) (model_of tree94) (divides94 z).
Proof.
  constructor; try (intros; reflexivity).
  - intros n ns (q & p & e & Iq & _). destruct Iq.
  - intros n ns (q & p & e & Iq & _). destruct Iq.
  - intros i f v step Sf K. destruct (stored94 i f Sf) as [(_ & ->)|(_ & ->)]; [discriminate|]. injection K as <- <-. left. reflexivity.
  - intros c [].
  - intros x [].
Qed.
(** With a division by zero the same configuration obeys a constraint and its negation. *)
Lemma division_refuted : exists ord h m t k c k' c' h1 m1 h2 m2 a b,
  is_order ord /\ represents h m t /\ all_resolved m /\ supported h m /\ no_xor m /\ mentions_names m c /\ well_said h m k c /\ xor_free c /\ opposite k c k' c' /\
  exec ord (OAddConstraint k c) (h, m) = Some ((h1, m1), None) /\ exec ord (OAddConstraint k' c') (h, m) = Some ((h2, m2), None) /\
  SolverSpec.valid h1 m1 a /\ SolverSpec.valid h2 m2 b /\ (forall n, a_bool a n = a_bool b n) /\ (forall n, a_int a n = a_int b n).
Proof.
  assert (Mn : mentions_names (model_of tree94) quotient_one) by (intros r [<-|[]]; exists (T "z"), 1; split; reflexivity).
  assert (Ar : all_resolved (model_of tree94)) by (intros c r []). assert (Nx : no_xor (model_of tree94)) by (intros e []).
  assert (Ws : well_said (plant 2 tree94) (model_of tree94) KNonBoolean quotient_one) by (intros a; eexists; reflexivity).
  assert (Xf : xor_free quotient_one) by (cbn; repeat (split; try discriminate)).
  destruct (added order _ _ tree94 KNonBoolean quotient_one represents94 Ar supported94 Nx Mn Ws Xf) as (h1 & m1 & t1 & E1 & _ & _ & _ & V1 & _).
  destruct (opposite_fine _ _ _ _ _ _ (opposite_nonboolean quotient_one) Ws Mn Xf) as (Ws' & Mn' & Xf').
  destruct (added order _ _ tree94 KNonBoolean (CUn UNot quotient_one) represents94 Ar supported94 Nx Mn' Ws' Xf') as (h2 & m2 & t2 & E2 & _ & _ & _ & V2 & _).
  exists order, (plant 2 tree94), (model_of tree94), tree94, KNonBoolean, quotient_one, KNonBoolean, (CUn UNot quotient_one), h1, m1, h2, m2, (divides94 1), (divides94 0).
  split; [exact order_ok|]. split; [exact represents94|]. split; [exact Ar|]. split; [exact supported94|]. split; [exact Nx|]. split; [exact Mn|]. split; [exact Ws|]. split; [exact Xf|]. split; [constructor|].
  split; [exact E1|]. split; [exact E2|]. split; [apply V1; split; [apply valid94|reflexivity]|]. split; [apply V2; split; [apply valid94|reflexivity]|]. split; reflexivity.
Qed.
