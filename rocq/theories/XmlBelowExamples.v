(** A model whose root is called car, written and read back. *)
From Coq Require Import List ZArith NArith Arith Bool Ascii String Permutation Lia.
From Verif Require Import Text TextProofs NumSpec LlvmInt ConstraintModel ConstraintParserModel ConstraintSpec ConstraintRoundTrip SourceRangeModel StepFunctionSpec FeatureTreeModel FeatureTreeSpec FeatureTreeExamples FeatureTransactionModel
  FeatureTransactionSpec FeatureEditSpec FeatureEditProofs FeatureTransactionExamples FeatureCloneSpec FeatureCloneProofs FeatureBuildSpec FeatureBuildExamples SxfmModel SxfmExamples XmlModel XmlWriterModel XmlSpec XmlDetectFinal XmlFinal XmlExamples
  XmlTripSpec XmlTripFinal XmlTripExamples ConfigurationModel SolverModel SolverSpec SolverExamples ValidSpec ValidProofs ValidCloneProofs ValidFinal XmlBelowSpec XmlBelowValidFinal.
Import ListNotations.
Local Open Scope string_scope.
Local Open Scope list_scope.
Local Open Scope nat_scope.

(** car with p, an optional x and n in 1, 2, 3; p has the alternatives a and b; x implies
    a, a or x, n is at most 2, and x + n is less than 4 if x is selected. *)
Definition p82 : feature := Feature FBinary (T "p") [] [] [] [] [] false.
Definition a82 : feature := Feature FBinary (T "a") [] [] [] [] [10] false.
Definition b82 : feature := Feature FBinary (T "b") [] [] [] [] [] false.
Definition x82 : feature := Feature FBinary (T "x") [] [] [] [] [10] true.
Definition n82 : feature := Feature (FNumeric (VList [1; 2; 3]%Z) None) (T "n") [] [] [] [] [] false.
Definition tree82 : tree := Node 0 (rootd "car") [Node 1 (NFeature p82) [Node 2 (NRelationship RAlternative) [Node 3 (NFeature a82) []; Node 4 (NFeature b82) []]]; Node 5 (NFeature x82) []; Node 6 (NFeature n82) []].
Definition heap82 : heap := plant 20 tree82.
Definition model82 : fmodel := FModel (T "m") (Some 0) (T "p") (T "c0") (named tree82)
  [MConstraint 10 (CBin BImplies (CFeat (Ref 5)) (CFeat (Ref 3))); MConstraint 11 (CBin BOr (CFeat (Ref 3)) (CFeat (Ref 5)))]
  [MConstraint 12 (CBin BLessEqual (CFeat (Ref 6)) (CInt 2))]
  [Mixed (MConstraint 13 (CBin BLess (CBin BAdd (CFeat (Ref 5)) (CFeat (Ref 6))) (CInt 4))) ReqAll ExprPos] [2].
Lemma represents82 : represents heap82 model82 tree82.
Proof. assert (represents heap82 (model_of tree82) tree82) as R by planted. destruct R; constructor; assumption. Qed.
Lemma features82 s i f : get_feature model82 s = Some i -> feature_at heap82 i = Some f ->
  s = f_name f /\ (i = 0 /\ f = root_feature (T "car") \/ i = 1 /\ f = p82 \/ i = 3 /\ f = a82 \/ i = 4 /\ f = b82 \/ i = 5 /\ f = x82 \/ i = 6 /\ f = n82).
Proof.
  intros G F. unfold get_feature in G. apply find_name_in in G; [|cbn; repeat (constructor; [cbn; intuition congruence|]); constructor].
  cbn in G. repeat (destruct G as [E|G]; [injection E as <- <-; cbn in F; injection F as <-; split; [reflexivity|tauto]|]). destruct G.
Qed.
Lemma has82 s i : get_feature model82 s = Some i -> exists f, feature_at heap82 i = Some f.
Proof. intros G. destruct (get_stored heap82 model82 tree82 represents82 s i G) as (f & (_ & F) & _). eauto. Qed.
Ltac cases82 X := destruct X as [(-> & ->)|[(-> & ->)|[(-> & ->)|[(-> & ->)|[(-> & ->)|(-> & ->)]]]]].
Lemma enrolled82 : enrolled heap82 model82.
Proof.
  constructor.
  - cbn. repeat (constructor; [cbn; intuition congruence|]). constructor.
  - intros c I. cbn in I. repeat (destruct I as [<-|I]; [cbn; lia|]). destruct I.
  - intros s i f id G F. destruct (features82 s i f G F) as (_ & X). unfold mentioned. split.
    + intros I. cases82 X; destruct I.
    + intros (c & I & E & Cl & J). cbn in I. repeat (destruct I as [<-|I]; [cbn in E, Cl, J; discriminate|]). destruct I.
  - intros s i f id G F. destruct (features82 s i f G F) as (_ & X). unfold mentioned. split.
    + intros I. exists (MConstraint 10 (CBin BImplies (CFeat (Ref 5)) (CFeat (Ref 3)))). cases82 X; cbn in I; try contradiction; destruct I as [<-|[]]; cbn; auto 8.
    + intros (c & I & E & Cl & J). cbn in I. repeat (destruct I as [<-|I]; [cbn in E, Cl, J; first [discriminate|idtac]|]); [|destruct I].
      cases82 X; cbn in J; subst id; cbn; auto; repeat (destruct J as [J|J]; [discriminate|]); destruct J.
Qed.
Lemma resolved82 : all_resolved model82.
Proof.
  intros c r I J. cbn in I. repeat (destruct I as [<-|I]; [cbn in J; repeat (destruct J as [<-|J]; [first [exists (T "a"), 3; split; reflexivity|exists (T "x"), 5; split; reflexivity|exists (T "n"), 6; split; reflexivity]|]); destruct J|]). destruct I.
Qed.
Lemma writable82 : writable_below heap82 model82.
Proof.
  assert (Ia : identifier "a") by (eapply letter; reflexivity). assert (Ix : identifier "x") by (eapply letter; reflexivity). assert (Inn : identifier "n") by (eapply letter; reflexivity).
  assert (Sa : XmlTripSpec.spelled heap82 (CFeat (Ref 3)) (CFeat "a")) by (constructor; exists a82; split; reflexivity). assert (Sx : XmlTripSpec.spelled heap82 (CFeat (Ref 5)) (CFeat "x")) by (constructor; exists x82; split; reflexivity).
  assert (Sn : XmlTripSpec.spelled heap82 (CFeat (Ref 6)) (CFeat "n")) by (constructor; exists n82; split; reflexivity).
  constructor.
  - intros s i f G F. destruct (features82 s i f G F) as (_ & X). cases82 X; (split; [discriminate|]); (split; [reflexivity|]); split; cbn; try exact Logic.I; try constructor.
    + discriminate.
    + repeat constructor; unfold is_int64, int64_min, int64_max; lia.
  - intros s i G. destruct (has82 s i G) as (f & F). destruct (features82 s i f G F) as (-> & X). cases82 X; cbn; split; try discriminate; auto; intros [X|X]; discriminate.
  - intros s i f G F. destruct (features82 s i f G F) as (_ & X). cases82 X; cbn; split; try discriminate; auto.
  - reflexivity.
  - reflexivity.
  - reflexivity.
  - intros c I. cbn in I. destruct I as [<-|[<-|[]]]; [left; eexists BImplies, _, _; split; [auto|reflexivity]|right]. exists (CBin BOr (CFeat "a") (CFeat "x")). split; [constructor; assumption|]. cbn. repeat (split; [discriminate|]). auto.
  - intros c I. cbn in I. destruct I as [<-|[]]. exists (CBin BLessEqual (CFeat "n") (CInt 2)). split; [constructor; [assumption|constructor]|]. cbn. repeat (split; [discriminate|]). split; [exact Inn|]. unfold int64_max; lia.
  - intros x I. cbn in I. destruct I as [<-|[]]. exists (CBin BLess (CBin BAdd (CFeat "x") (CFeat "n")) (CInt 4)). split; [repeat (constructor; auto)|]. cbn. repeat (split; [discriminate|]). unfold int64_max; repeat split; auto; try lia; discriminate.
Qed.
(** Parents. *)
Lemma above82 i p : feature_above heap82 i p -> (exists s, get_feature model82 s = Some i) -> In (i, p) [(1, 0); (3, 1); (4, 1); (5, 0); (6, 0)].
Proof.
  intros A (s & G). destruct (has82 s i G) as (f & F). destruct (features82 s i f G F) as (_ & X). cases82 X.
  - inversion A as [? c q cp Ci Pi|? c q cp ? Ci Pi]; subst; injection Ci as <-; discriminate.
  - assert (A1 : feature_above heap82 1 0) by (eapply above_here; reflexivity). rewrite (feature_above_unique _ _ _ A _ A1). cbn. auto.
  - assert (A1 : feature_above heap82 3 1) by (eapply above_further; [reflexivity|reflexivity|reflexivity|reflexivity|]; eapply above_here; reflexivity). rewrite (feature_above_unique _ _ _ A _ A1). cbn. auto.
  - assert (A1 : feature_above heap82 4 1) by (eapply above_further; [reflexivity|reflexivity|reflexivity|reflexivity|]; eapply above_here; reflexivity). rewrite (feature_above_unique _ _ _ A _ A1). cbn. auto.
  - assert (A1 : feature_above heap82 5 0) by (eapply above_here; reflexivity). rewrite (feature_above_unique _ _ _ A _ A1). cbn. auto 8.
  - assert (A1 : feature_above heap82 6 0) by (eapply above_here; reflexivity). rewrite (feature_above_unique _ _ _ A _ A1). cbn. auto 8.
Qed.
Lemma group82 p k : group_of heap82 model82 p k -> p = 1 /\ k = RAlternative.
Proof. intros (q & c & [<-|[]] & C & D & P). injection C as <-. cbn in D, P. split; congruence. Qed.
Lemma neat82 : neat heap82 model82.
Proof.
  split; [intros p q q' c c' [<-|[]] [<-|[]]; reflexivity|]. intros p k s i Gk G (c & C & P). apply group82 in Gk. destruct Gk as (-> & ->). destruct (has82 s i G) as (f & F).
  destruct (features82 s i f G F) as (_ & X). cases82 X; injection C as <-; discriminate.
Qed.
Lemma listed82 : listed heap82 model82.
Proof. intros s i f v g G F K. destruct (features82 s i f G F) as (_ & X). cases82 X; try discriminate. injection K as <- <-. eauto. Qed.
Lemma narrow82 : narrow_values heap82 model82.
Proof.
  intros s i f vs z g G F K. destruct (features82 s i f G F) as (_ & X). cases82 X; try discriminate. injection K as K _. change [1; 2; 3]%Z with ([1; 2]%Z ++ [3%Z]) in K. apply app_inj_tail in K. destruct K as (<- & _). repeat constructor; lia.
Qed.
Lemma proper82 : proper_groups heap82 model82.
Proof.
  intros p k Gk. apply group82 in Gk. destruct Gk as (-> & ->). split; [reflexivity|]. split.
  - exists 3, 4. repeat split; [exists (T "a"); reflexivity| |exists (T "b"); reflexivity| |discriminate]; (eapply above_further; [reflexivity|reflexivity|reflexivity|reflexivity|]; eapply above_here; reflexivity).
  - intros i (E & A). apply above82 in A; [|exact E]. cbn in A. repeat (destruct A as [A|A]; [first [discriminate|injection A as <-; eexists; repeat split; reflexivity]|]). destruct A.
Qed.
Lemma exclusive82 : exclusive_grouped heap82 model82.
Proof.
  intros s p G ((a & b & (Ea & Aa) & (Eb & Ab) & N) & All). apply above82 in Aa; [|exact Ea]. apply above82 in Ab; [|exact Eb].
  assert (X : p = 1 \/ p = 0). { cbn in Aa. repeat (destruct Aa as [Aa|Aa]; [injection Aa as _ <-; auto|]). destruct Aa. }
  destruct X as [-> | ->]; [exists RAlternative; eexists 2, _; repeat split; left; reflexivity|].
  exfalso. destruct (All 5) as ((f & F & O) & _); [split; [exists (T "x"); reflexivity|eapply above_here; reflexivity]|]. injection F as <-. discriminate.
Qed.
Lemma stored82 i f : stored heap82 model82 i f -> i = 0 /\ f = root_feature (T "car") \/ i = 1 /\ f = p82 \/ i = 3 /\ f = a82 \/ i = 4 /\ f = b82 \/ i = 5 /\ f = x82 \/ i = 6 /\ f = n82.
Proof. intros Sf. apply (stored_is _ _ _ represents82) in Sf. destruct Sf as (G & F). exact (proj2 (features82 _ _ _ G F)). Qed.
Lemma supported82 : supported heap82 model82.
Proof.
  constructor.
  - intros i f Sf. pose proof (stored82 i f Sf) as X. cases82 X; discriminate.
  - intros i f p g r Sf K H Fg. assert (A : feature_above heap82 i p).
    { destruct (hangs_parent _ _ _ represents82 i p r f Sf H (ex_intro _ g Fg)) as (u & Gu). exact (hangs_above _ _ _ represents82 i p r u H Gu). }
    apply above82 in A; [|exists (f_name f); exact (stored_get _ _ _ represents82 i f Sf)]. cbn in A. repeat (destruct A as [A|A]; [injection A as _ <-; injection Fg as <-; reflexivity|]). destruct A.
  - intros n ns (q & p & e & Iq & C & _ & F2) ->. destruct Iq as [<-|[]]. injection C as _ <-. inversion F2.
  - intros i f v step Sf K. pose proof (stored82 i f Sf) as X. cases82 X; try discriminate. injection K as <- <-. exact Logic.I.
  - intros c [<-|[<-|[<-|[]]]] a; eexists; reflexivity.
  - intros x [<-|[]] a. eexists. reflexivity.
Qed.
Lemma no_xor82 : no_xor model82.
Proof. intros e [<-|[<-|[<-|[<-|[]]]]]; cbn; repeat (split; try discriminate). Qed.

(** The enumerations of the model and of the model read back, and what the root has become. *)
Definition asg82 (a b x : bool) (n : Z) : assignment :=
  Assignment (fun s => if text_eqb s (T "a") then a else if text_eqb s (T "b") then b else if text_eqb s (T "x") then x else true) (fun _ => n) (fun _ => 0%Z).
Definition tried82 : list assignment := flat_map (fun a => flat_map (fun b => flat_map (fun x => map (asg82 a b x) [1; 2; 3]%Z) bools) bools) bools.
Definition listing82 (w : option (heap * fmodel)) : option (list (list (option string))) :=
  let* (h, m) := w in let* s := SolverModel.load order 9 h m in let* r := get_all (trying tried82) 20 s in
  match r with inl l => Some (map (fun c => map (fun n => option_map U (option_value c (T n))) ["root"; "car"; "a"; "b"; "x"; "n"]) l) | inr _ => None end.
Definition again82 : option (heap * fmodel) := let* doc := write_xml order heap82 model82 in SxfmExamples.outcome (read_xml order no_sci no_step (T "/tmp") heap0 doc).
Lemma firm82 : root_firm heap82 model82.
Proof. intros i f E F. injection E as <-. injection F as <-. reflexivity. Qed.
(** The name of the root read back and of its parent; car, and the name of its parent. *)
Definition roots82 : option (option (option string * option string) * option (fkind * bool) * option (option string)) :=
  let* (h, m) := again82 in
  let above i := let* c := h_cells h i in let* p := n_parent c in option_map U (name_at h p) in
  Some (option_map (fun r => (option_map U (name_at h r), above r)) (m_root m),
        (let* i := get_feature m (T "car") in let* f := feature_at h i in Some (f_kind f, f_optional f)),
        option_map above (get_feature m (T "car"))).
Fixpoint times82 (n : nat) : option (heap * fmodel) :=
  match n with
  | 0 => Some (heap82, model82)
  | S k => let* (h, m) := times82 k in let* doc := write_xml order h m in SxfmExamples.outcome (read_xml order no_sci no_step (T "/tmp") heap0 doc)
  end.
Definition names82 (n : nat) : option (list string) := let* (h, m) := times82 n in Some (map (fun x => U (fst x)) (m_features m)).
Lemma below_example :
  is_order order /\ sci_nonneg no_sci /\ heap_ok heap0 /\ represents heap82 model82 tree82 /\ enrolled heap82 model82 /\ all_resolved model82 /\ writable_below heap82 model82 /\ root_firm heap82 model82 /\ supported heap82 model82 /\ no_xor model82 /\
  neat heap82 model82 /\ listed heap82 model82 /\ narrow_values heap82 model82 /\ proper_groups heap82 model82 /\ exclusive_grouped heap82 model82 /\
  (let rest := [[Some "true"; Some "false"; Some "true"; Some "1"]; [Some "true"; Some "false"; Some "true"; Some "2"]; [Some "true"; Some "false"; Some "false"; Some "1"]; [Some "true"; Some "false"; Some "false"; Some "2"]] in
   listing82 (Some (heap82, model82)) = Some (map (fun l => None :: Some "true" :: l) rest) /\ listing82 again82 = Some (map (fun l => Some "true" :: Some "true" :: l) rest)) /\
  roots82 = Some (Some (Some "root", None), Some (FBinary, false), Some (Some "root")) /\
  option_map (@List.length string) (names82 0) = Some 6 /\ option_map (@List.length string) (names82 1) = Some 7 /\ names82 3 = names82 1.
Proof.
  split; [exact order_ok|]. split; [exact no_sci_ok|]. split; [exact heap0_ok|]. split; [exact represents82|]. split; [exact enrolled82|]. split; [exact resolved82|]. split; [exact writable82|]. split; [exact firm82|].
  split; [exact supported82|]. split; [exact no_xor82|]. split; [exact neat82|]. split; [exact listed82|]. split; [exact narrow82|]. split; [exact proper82|]. split; [exact exclusive82|].
  split; [cbv zeta; split; vm_compute; reflexivity|]. split; [vm_compute; reflexivity|]. split; [reflexivity|]. split; vm_compute; reflexivity.
Qed.

