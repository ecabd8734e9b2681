(** A model whose clone and whose copy read back have its valid configurations, and models
    of which this is not so. *)
From Coq Require Import List ZArith NArith Arith Bool Ascii String Permutation Lia.
From Verif Require Import Text TextProofs NumSpec LlvmInt ConstraintModel ConstraintParserModel ConstraintSpec ConstraintRoundTrip SourceRangeModel StepFunctionSpec FeatureTreeModel FeatureTreeSpec FeatureTreeExamples FeatureTransactionModel
  FeatureTransactionSpec FeatureEditSpec FeatureEditProofs FeatureTransactionExamples FeatureCloneSpec FeatureCloneProofs FeatureBuildSpec FeatureBuildExamples SxfmModel SxfmExamples XmlModel XmlWriterModel XmlSpec XmlDetectFinal XmlFinal XmlExamples
  XmlTripSpec XmlTripFinal XmlTripExamples ConfigurationModel SolverModel SolverSpec SolverExamples ValidSpec ValidProofs ValidCloneProofs ValidFinal.
Import ListNotations.
Local Open Scope string_scope.
Local Open Scope list_scope.
Local Open Scope nat_scope.

(** base with p, an optional x and n in 1, 2, 3; p has the alternatives a and b; x implies
    a, a or x, n is at most 2, and x + n is less than 4 if x is selected. *)
Definition p13 : feature := Feature FBinary (T "p") [] [] [] [] [] false.
Definition a13 : feature := Feature FBinary (T "a") [] [] [] [] [10] false.
Definition b13 : feature := Feature FBinary (T "b") [] [] [] [] [] false.
Definition x13 : feature := Feature FBinary (T "x") [] [] [] [] [10] true.
Definition n13 : feature := Feature (FNumeric (VList [1; 2; 3]%Z) None) (T "n") [] [] [] [] [] false.
Definition tree13 : tree := Node 0 (rootd "base") [Node 1 (NFeature p13) [Node 2 (NRelationship RAlternative) [Node 3 (NFeature a13) []; Node 4 (NFeature b13) []]]; Node 5 (NFeature x13) []; Node 6 (NFeature n13) []].
Definition heap13 : heap := plant 20 tree13.
Definition model13 : fmodel := FModel (T "m") (Some 0) (T "p") (T "c0") (named tree13)
  [MConstraint 10 (CBin BImplies (CFeat (Ref 5)) (CFeat (Ref 3))); MConstraint 11 (CBin BOr (CFeat (Ref 3)) (CFeat (Ref 5)))]
  [MConstraint 12 (CBin BLessEqual (CFeat (Ref 6)) (CInt 2))]
  [Mixed (MConstraint 13 (CBin BLess (CBin BAdd (CFeat (Ref 5)) (CFeat (Ref 6))) (CInt 4))) ReqAll ExprPos] [2].
Lemma represents13 : represents heap13 model13 tree13.
Proof. assert (represents heap13 (model_of tree13) tree13) as R by planted. destruct R; constructor; assumption. Qed.
Lemma features13 s i f : get_feature model13 s = Some i -> feature_at heap13 i = Some f ->
  s = f_name f /\ (i = 0 /\ f = root_feature (T "base") \/ i = 1 /\ f = p13 \/ i = 3 /\ f = a13 \/ i = 4 /\ f = b13 \/ i = 5 /\ f = x13 \/ i = 6 /\ f = n13).
Proof.
  intros G F. unfold get_feature in G. apply find_name_in in G; [|cbn; repeat (constructor; [cbn; intuition congruence|]); constructor].
  cbn in G. repeat (destruct G as [E|G]; [injection E as <- <-; cbn in F; injection F as <-; split; [reflexivity|tauto]|]). destruct G.
Qed.
Lemma has13 s i : get_feature model13 s = Some i -> exists f, feature_at heap13 i = Some f.
Proof. intros G. destruct (get_stored heap13 model13 tree13 represents13 s i G) as (f & (_ & F) & _). eauto. Qed.
Ltac cases13 X := destruct X as [(-> & ->)|[(-> & ->)|[(-> & ->)|[(-> & ->)|[(-> & ->)|(-> & ->)]]]]].
Lemma enrolled13 : enrolled heap13 model13.
Proof.
  constructor.
  - cbn. repeat (constructor; [cbn; intuition congruence|]). constructor.
  - intros c I. cbn in I. repeat (destruct I as [<-|I]; [cbn; lia|]). destruct I.
  - intros s i f id G F. destruct (features13 s i f G F) as (_ & X). unfold mentioned. split.
    + intros I. cases13 X; destruct I.
    + intros (c & I & E & Cl & J). cbn in I. repeat (destruct I as [<-|I]; [cbn in E, Cl, J; discriminate|]). destruct I.
  - intros s i f id G F. destruct (features13 s i f G F) as (_ & X). unfold mentioned. split.
    + intros I. exists (MConstraint 10 (CBin BImplies (CFeat (Ref 5)) (CFeat (Ref 3)))). cases13 X; cbn in I; try contradiction; destruct I as [<-|[]]; cbn; auto 8.
    + intros (c & I & E & Cl & J). cbn in I. repeat (destruct I as [<-|I]; [cbn in E, Cl, J; first [discriminate|idtac]|]); [|destruct I].
      cases13 X; cbn in J; subst id; cbn; auto; repeat (destruct J as [J|J]; [discriminate|]); destruct J.
Qed.
Lemma resolved13 : all_resolved model13.
Proof.
  intros c r I J. cbn in I. repeat (destruct I as [<-|I]; [cbn in J; repeat (destruct J as [<-|J]; [first [exists (T "a"), 3; split; reflexivity|exists (T "x"), 5; split; reflexivity|exists (T "n"), 6; split; reflexivity]|]); destruct J|]). destruct I.
Qed.
Lemma writable13 : writable heap13 model13.
Proof.
  assert (Ia : identifier "a") by (eapply letter; reflexivity). assert (Ix : identifier "x") by (eapply letter; reflexivity). assert (Inn : identifier "n") by (eapply letter; reflexivity).
  assert (Sa : XmlTripSpec.spelled heap13 (CFeat (Ref 3)) (CFeat "a")) by (constructor; exists a13; split; reflexivity). assert (Sx : XmlTripSpec.spelled heap13 (CFeat (Ref 5)) (CFeat "x")) by (constructor; exists x13; split; reflexivity).
  assert (Sn : XmlTripSpec.spelled heap13 (CFeat (Ref 6)) (CFeat "n")) by (constructor; exists n13; split; reflexivity).
  constructor.
  - intros s i f G F. destruct (features13 s i f G F) as (_ & X). cases13 X; (split; [discriminate|]); (split; [reflexivity|]); split; cbn; try exact Logic.I; try constructor.
    + discriminate.
    + repeat constructor; unfold is_int64, int64_min, int64_max; lia.
  - intros s i G. destruct (has13 s i G) as (f & F). destruct (features13 s i f G F) as (-> & X). cases13 X; cbn; split; try discriminate; auto; intros [X|X]; discriminate.
  - intros s i f G F. destruct (features13 s i f G F) as (_ & X). cases13 X; cbn; split; try discriminate; auto.
  - reflexivity.
  - reflexivity.
  - reflexivity.
  - intros c I. cbn in I. destruct I as [<-|[<-|[]]]; [left; eexists BImplies, _, _; split; [auto|reflexivity]|right]. exists (CBin BOr (CFeat "a") (CFeat "x")). split; [constructor; assumption|]. cbn. repeat (split; [discriminate|]). auto.
  - intros c I. cbn in I. destruct I as [<-|[]]. exists (CBin BLessEqual (CFeat "n") (CInt 2)). split; [constructor; [assumption|constructor]|]. cbn. repeat (split; [discriminate|]). split; [exact Inn|]. unfold int64_max; lia.
  - intros x I. cbn in I. destruct I as [<-|[]]. exists (CBin BLess (CBin BAdd (CFeat "x") (CFeat "n")) (CInt 4)). split; [repeat (constructor; auto)|]. cbn. repeat (split; [discriminate|]). unfold int64_max; repeat split; auto; try lia; discriminate.
Qed.
(** Parents. *)
Lemma above13 i p : feature_above heap13 i p -> (exists s, get_feature model13 s = Some i) -> In (i, p) [(1, 0); (3, 1); (4, 1); (5, 0); (6, 0)].
Proof.
  intros A (s & G). destruct (has13 s i G) as (f & F). destruct (features13 s i f G F) as (_ & X). cases13 X.
  - inversion A as [? c q cp Ci Pi|? c q cp ? Ci Pi]; subst; injection Ci as <-; discriminate.
  - assert (A1 : feature_above heap13 1 0) by (eapply above_here; reflexivity). rewrite (feature_above_unique _ _ _ A _ A1). cbn. auto.
  - assert (A1 : feature_above heap13 3 1) by (eapply above_further; [reflexivity|reflexivity|reflexivity|reflexivity|]; eapply above_here; reflexivity). rewrite (feature_above_unique _ _ _ A _ A1). cbn. auto.
  - assert (A1 : feature_above heap13 4 1) by (eapply above_further; [reflexivity|reflexivity|reflexivity|reflexivity|]; eapply above_here; reflexivity). rewrite (feature_above_unique _ _ _ A _ A1). cbn. auto.
  - assert (A1 : feature_above heap13 5 0) by (eapply above_here; reflexivity). rewrite (feature_above_unique _ _ _ A _ A1). cbn. auto 8.
  - assert (A1 : feature_above heap13 6 0) by (eapply above_here; reflexivity). rewrite (feature_above_unique _ _ _ A _ A1). cbn. auto 8.
Qed.
Lemma group13 p k : group_of heap13 model13 p k -> p = 1 /\ k = RAlternative.
Proof. intros (q & c & [<-|[]] & C & D & P). injection C as <-. cbn in D, P. split; congruence. Qed.
Lemma neat13 : neat heap13 model13.
Proof.
  split; [intros p q q' c c' [<-|[]] [<-|[]]; reflexivity|]. intros p k s i Gk G (c & C & P). apply group13 in Gk. destruct Gk as (-> & ->). destruct (has13 s i G) as (f & F).
  destruct (features13 s i f G F) as (_ & X). cases13 X; injection C as <-; discriminate.
Qed.
Lemma listed13 : listed heap13 model13.
Proof. intros s i f v g G F K. destruct (features13 s i f G F) as (_ & X). cases13 X; try discriminate. injection K as <- <-. eauto. Qed.
Lemma narrow13 : narrow_values heap13 model13.
Proof.
  intros s i f vs z g G F K. destruct (features13 s i f G F) as (_ & X). cases13 X; try discriminate. injection K as K _. change [1; 2; 3]%Z with ([1; 2]%Z ++ [3%Z]) in K. apply app_inj_tail in K. destruct K as (<- & _). repeat constructor; lia.
Qed.
Lemma proper13 : proper_groups heap13 model13.
Proof.
  intros p k Gk. apply group13 in Gk. destruct Gk as (-> & ->). split; [reflexivity|]. split.
  - exists 3, 4. repeat split; [exists (T "a"); reflexivity| |exists (T "b"); reflexivity| |discriminate]; (eapply above_further; [reflexivity|reflexivity|reflexivity|reflexivity|]; eapply above_here; reflexivity).
  - intros i (E & A). apply above13 in A; [|exact E]. cbn in A. repeat (destruct A as [A|A]; [first [discriminate|injection A as <-; eexists; repeat split; reflexivity]|]). destruct A.
Qed.
Lemma exclusive13 : exclusive_grouped heap13 model13.
Proof.
  intros s p G ((a & b & (Ea & Aa) & (Eb & Ab) & N) & All). apply above13 in Aa; [|exact Ea]. apply above13 in Ab; [|exact Eb].
  assert (X : p = 1 \/ p = 0). { cbn in Aa. repeat (destruct Aa as [Aa|Aa]; [injection Aa as _ <-; auto|]). destruct Aa. }
  destruct X as [-> | ->]; [exists RAlternative; eexists 2, _; repeat split; left; reflexivity|].
  exfalso. destruct (All 5) as ((f & F & O) & _); [split; [exists (T "x"); reflexivity|eapply above_here; reflexivity]|]. injection F as <-. discriminate.
Qed.
Lemma stored13 i f : stored heap13 model13 i f -> i = 0 /\ f = root_feature (T "base") \/ i = 1 /\ f = p13 \/ i = 3 /\ f = a13 \/ i = 4 /\ f = b13 \/ i = 5 /\ f = x13 \/ i = 6 /\ f = n13.
Proof. intros Sf. apply (stored_is _ _ _ represents13) in Sf. destruct Sf as (G & F). exact (proj2 (features13 _ _ _ G F)). Qed.
Lemma supported13 : supported heap13 model13.
Proof.
  constructor.
  - intros i f Sf. pose proof (stored13 i f Sf) as X. cases13 X; discriminate.
  - intros i f p g r Sf K H Fg. assert (A : feature_above heap13 i p).
    { destruct (hangs_parent _ _ _ represents13 i p r f Sf H (ex_intro _ g Fg)) as (u & Gu). exact (hangs_above _ _ _ represents13 i p r u H Gu). }
    apply above13 in A; [|exists (f_name f); exact (stored_get _ _ _ represents13 i f Sf)]. cbn in A. repeat (destruct A as [A|A]; [injection A as _ <-; injection Fg as <-; reflexivity|]). destruct A.
  - intros n ns (q & p & e & Iq & C & _ & F2) ->. destruct Iq as [<-|[]]. injection C as _ <-. inversion F2.
  - intros i f v step Sf K. pose proof (stored13 i f Sf) as X. cases13 X; try discriminate. injection K as <- <-. exact Logic.I.
  - intros c [<-|[<-|[<-|[]]]] a; eexists; reflexivity.
  - intros x [<-|[]] a. eexists. reflexivity.
Qed.
Lemma no_xor13 : no_xor model13.
Proof. intros e [<-|[<-|[<-|[<-|[]]]]]; cbn; repeat (split; try discriminate). Qed.
Lemma root_free13 : root_name_free model13.
Proof. intros i G. discriminate G. Qed.

(** The enumeration of the model, of the clone and of the copy read back. *)
Definition asg13 (a b x : bool) (n : Z) : assignment :=
  Assignment (fun s => if text_eqb s (T "a") then a else if text_eqb s (T "b") then b else if text_eqb s (T "x") then x else true) (fun _ => n) (fun _ => 0%Z).
Definition tried13 : list assignment := flat_map (fun a => flat_map (fun b => flat_map (fun x => map (asg13 a b x) [1; 2; 3]%Z) bools) bools) bools.
Definition listing13 (w : option (heap * fmodel)) : option (list (list (option string))) :=
  let* (h, m) := w in let* s := SolverModel.load order 9 h m in let* r := get_all (trying tried13) 20 s in
  match r with inl l => Some (map (fun c => map (fun n => option_map U (option_value c (T n))) ["a"; "b"; "x"; "n"]) l) | inr _ => None end.
Definition again13 : option (heap * fmodel) := let* doc := write_xml order heap13 model13 in SxfmExamples.outcome (read_xml order no_sci no_step (T "/tmp") heap0 doc).
Lemma valid_example :
  is_order order /\ sci_nonneg no_sci /\ heap_ok heap0 /\ represents heap13 model13 tree13 /\ enrolled heap13 model13 /\ all_resolved model13 /\ writable heap13 model13 /\ root_name_free model13 /\ supported heap13 model13 /\ no_xor model13 /\
  neat heap13 model13 /\ listed heap13 model13 /\ narrow_values heap13 model13 /\ proper_groups heap13 model13 /\ exclusive_grouped heap13 model13 /\
  (let l := [[Some "true"; Some "false"; Some "true"; Some "1"]; [Some "true"; Some "false"; Some "true"; Some "2"]; [Some "true"; Some "false"; Some "false"; Some "1"]; [Some "true"; Some "false"; Some "false"; Some "2"]] in
   listing13 (Some (heap13, model13)) = Some l /\ listing13 (clone_model order (fun l => l) heap13 model13) = Some l /\ listing13 again13 = Some l).
Proof.
  split; [exact order_ok|]. split; [exact no_sci_ok|]. split; [exact heap0_ok|]. split; [exact represents13|]. split; [exact enrolled13|]. split; [exact resolved13|]. split; [exact writable13|]. split; [exact root_free13|].
  split; [exact supported13|]. split; [exact no_xor13|]. split; [exact neat13|]. split; [exact listed13|]. split; [exact narrow13|]. split; [exact proper13|]. split; [exact exclusive13|].
  cbv zeta. split; [vm_compute; reflexivity|]. split; vm_compute; reflexivity.
Qed.

(** A clone loses the step function of a range and with it all valid configurations. *)
Definition tree14 : tree := Node 0 (rootd "r") [Node 1 (NFeature num9) []].
Definition heap14 : heap := plant 5 tree14.
Definition model14 : fmodel := model_of tree14.
Lemma represents14 : represents heap14 model14 tree14.
Proof. planted. Qed.
Lemma stored14 i f : stored heap14 model14 i f -> (i = 0 /\ f = root_feature (T "r")) \/ (i = 1 /\ f = num9).
Proof. intros (I & F). vm_compute in I. destruct I as [<-|[<-|[]]]; injection F as <-; auto. Qed.
Lemma iterates9 : iterates double 1 [1; 2; 4]%Z 8.
Proof.
  assert (iterates double 1 [] 1) as I0 by constructor. assert (iterates double 1 [1]%Z 2) as I1 by exact (It_next double 1 [] 1%Z 2%Z I0 eq_refl).
  assert (iterates double 1 [1; 2]%Z 4) as I2 by exact (It_next double 1 [1]%Z 2%Z 4%Z I1 eq_refl). exact (It_next double 1 [1; 2]%Z 4%Z 8%Z I2 eq_refl).
Qed.
Lemma clone_loses : exists h m t a, represents h m t /\ all_resolved m /\ root_name_free m /\ neat h m /\ supported h m /\ no_xor m /\ SolverSpec.valid h m a /\
  forall ord map_order h' m', is_order ord -> (forall l, Permutation (map_order l) l) -> clone_model ord map_order h m = Some (h', m') -> forall b, ~ SolverSpec.valid h' m' b.
Proof.
  assert (Re : all_resolved model14) by (intros c r []). assert (Rf : root_name_free model14) by (intros i G; discriminate G).
  exists heap14, model14, tree14, (Assignment (fun _ => true) (fun _ => 1%Z) (fun _ => 0%Z)). split; [exact represents14|]. split; [exact Re|]. split; [exact Rf|]. split; [|split; [|split; [|split]]].
  - split; [intros p q q' c c' []|intros p k s i (q & c & [] & _)].
  - constructor.
    + intros i f Sf. destruct (stored14 i f Sf) as [(_ & ->)|(_ & ->)]; discriminate.
    + intros i f p g r Sf K. destruct (stored14 i f Sf) as [(_ & ->)|(_ & ->)]; discriminate.
    + intros n ns (q & p & e & [] & _).
    + intros i f v step Sf K. destruct (stored14 i f Sf) as [(_ & ->)|(_ & ->)]; try discriminate. injection K as <- <-. right. exists double, [1; 2; 4]%Z, 8%Z. split; [reflexivity|]. split; [exact iterates9|]. split; [repeat constructor; lia|lia].
    + intros c [].
    + intros x [].
  - intros e [].
  - constructor.
    + reflexivity.
    + intros i f p g r Sf K. destruct (stored14 i f Sf) as [(_ & ->)|(_ & ->)]; discriminate.
    + reflexivity.
    + intros n ns (q & p & e & [] & _).
    + intros n ns (q & p & e & [] & _).
    + intros i f v step Sf K. destruct (stored14 i f Sf) as [(_ & ->)|(_ & ->)]; try discriminate. injection K as <- <-. exists double, []. split; [reflexivity|]. split; [constructor|]. constructor; [cbn; lia|constructor].
    + intros c [].
    + intros x [].
  - intros ord map_order h' m' O Mo E b V. destruct (model_cloned ord O map_order Mo _ _ _ represents14 (resolved_connected _ _ _ represents14 Re) Rf) as (h2 & m2 & E2 & Cl & _).
    rewrite E in E2. injection E2 as <- <-. destruct (cl_features _ _ _ _ Cl (T "n") 1 num9 eq_refl eq_refl) as (i' & f' & G & F & (N & _ & (K & _))). destruct (cl_represented _ _ _ _ Cl) as (t' & R').
    destruct (get_stored _ _ _ R' _ _ G) as (f2 & Sf & _). assert (f2 = f') as -> by (destruct Sf as (_ & F2); congruence). destruct (v_values _ _ _ V i' f' _ _ Sf K) as (g & vs & X & _). discriminate.
Qed.

(** An or-group is read back as alternative; both members cannot be selected any more. *)
Definition tree15 : tree := Node 0 (rootd "base") [Node 1 (NRelationship ROr) [Node 2 (binary "a") []; Node 3 (binary "b") []]].
Definition heap15 : heap := plant 5 tree15.
Definition model15 : fmodel := model_of tree15.
Lemma represents15 : represents heap15 model15 tree15.
Proof. planted. Qed.
Lemma stored15 i f : stored heap15 model15 i f -> (i = 0 /\ f = root_feature (T "base")) \/ (i = 2 /\ f = new_feature FBinary (T "a") false [] []) \/ (i = 3 /\ f = new_feature FBinary (T "b") false [] []).
Proof. intros (I & F). vm_compute in I. destruct I as [<-|[<-|[<-|[]]]]; injection F as <-; auto. Qed.
Lemma named15 s i f : get_feature model15 s = Some i -> feature_at heap15 i = Some f -> s = f_name f /\ stored heap15 model15 i f.
Proof. intros G F. split; [symmetry; exact (get_name _ _ _ represents15 _ _ _ G F)|]. apply (stored_is _ _ _ represents15). rewrite (get_name _ _ _ represents15 _ _ _ G F). auto. Qed.
Ltac cases15 Sf := destruct (stored15 _ _ Sf) as [(-> & ->)|[(-> & ->)|(-> & ->)]].
Lemma or_group_lost : exists h m t a, represents h m t /\ enrolled h m /\ all_resolved m /\ writable h m /\ supported h m /\ no_xor m /\ neat h m /\ listed h m /\ narrow_values h m /\ exclusive_grouped h m /\ SolverSpec.valid h m a /\
  forall ord ord' sci step cwd h0 doc h' m', is_order ord -> is_order ord' -> sci_nonneg sci -> heap_ok h0 -> write_xml ord h m = Some doc -> read_xml ord' sci step cwd h0 doc = SxDone (h', Some m') -> ~ SolverSpec.valid h' m' a.
Proof.
  set (asg := Assignment (fun _ => true) (fun _ => 0%Z) (fun _ => 0%Z)). exists heap15, model15, tree15, asg.
  assert (En : enrolled heap15 model15).
  { constructor; [constructor|intros c []| |]; intros s i f id G F; destruct (named15 s i f G F) as (_ & Sf); cases15 Sf; (split; [intros []|intros (c & [] & _)]). }
  assert (Re : all_resolved model15) by (intros c r []).
  assert (W : writable heap15 model15).
  { constructor; try reflexivity.
    - intros s i f G F. destruct (named15 s i f G F) as (_ & Sf). cases15 Sf; (split; [discriminate|]); (split; [reflexivity|]); split; [exact Logic.I|constructor|exact Logic.I|constructor|exact Logic.I|constructor].
    - intros s i G. destruct (get_stored _ _ _ represents15 s i G) as (f & Sf & <-). cases15 Sf; cbn; split; try discriminate; auto; intros [X|X]; discriminate.
    - intros s i f G F. destruct (named15 s i f G F) as (_ & Sf). cases15 Sf; cbn; split; try discriminate; auto.
    - intros c [].
    - intros c [].
    - intros c []. }
  split; [exact represents15|]. split; [exact En|]. split; [exact Re|]. split; [exact W|]. split; [|split; [|split; [|split; [|split; [|split; [|split]]]]]].
  - constructor.
    + intros i f Sf. cases15 Sf; discriminate.
    + intros i f p g r Sf K H Fg. destruct (hangs_parent _ _ _ represents15 i p r f Sf H (ex_intro _ g Fg)) as (u & Gu). destruct (named15 u p g Gu Fg) as (_ & Sg). cases15 Sg; reflexivity.
    + intros n ns (q & p & e & Iq & C & _). destruct Iq as [<-|[]]. injection C as C. discriminate.
    + intros i f v step Sf K. cases15 Sf; discriminate.
    + intros c [].
    + intros x [].
  - intros e [].
  - split; [intros p q q' c c' [<-|[]] [<-|[]]; reflexivity|]. intros p k s i (q & cq & [<-|[]] & Cq & _ & Pq) G (c & C & P). injection Cq as <-. injection Pq as <-.
    destruct (get_stored _ _ _ represents15 s i G) as (f & Sf & _). cases15 Sf; injection C as <-; discriminate.
  - intros s i f v g G F K. destruct (named15 s i f G F) as (_ & Sf). cases15 Sf; discriminate.
  - intros s i f vs z g G F K. destruct (named15 s i f G F) as (_ & Sf). cases15 Sf; discriminate.
  - intros s p G ((a & b & Ca & Cb & N) & All). destruct (All a Ca) as (_ & X). destruct (X b Cb (fun E => N (eq_sym E))) as (c & [] & _).
  - constructor; try reflexivity.
    + intros n ns (q & p & e & Iq & C & _). destruct Iq as [<-|[]]. injection C as C. discriminate.
    + intros n ns (q & p & e & Iq & C & _ & F) _. destruct Iq as [<-|[]]. injection C as _ <-. inversion F as [|x y l l' Hx _]; subst. exists y. split; [left; reflexivity|reflexivity].
    + intros i f v step Sf K. cases15 Sf; discriminate.
    + intros c [].
    + intros x [].
  - intros ord ord' sci step cwd h0 doc h' m' O O' So K Ew Er V. destruct (written_and_read ord ord' sci step cwd heap15 model15 tree15 h0 O O' So represents15 En Re W K) as (doc' & h2 & m2 & Ew' & _ & Er' & Mb & _ & Re').
    assert (doc' = doc) as -> by congruence. rewrite Er in Er'. injection Er' as <- <-.
    destruct (proj2 (mb_boolean _ _ _ _ Mb (CBin BExcludes (CFeat "a") (CFeat "b")))) as (c' & I & Sp).
    { right. left. exists "a", "b", 2, 3. split; [reflexivity|]. split; [reflexivity|]. split; [reflexivity|]. split; [discriminate|]. eexists _, _, 1, _, ROr. repeat (split; [reflexivity|]). reflexivity. }
    pose proof (v_constraints _ _ _ V c' (in_or_app _ _ _ (or_introl I))) as Vc.
    destruct (mb_represented _ _ _ _ Mb) as (t' & R').
    assert (Lv : forall r s i f, In r (leaves (c_expr c')) -> called_in h' r s -> get_feature model15 (T s) = Some i -> feature_at heap15 i = Some f -> f_kind f = FBinary -> leaf_value h' false asg r = Some (Truth true)).
    { intros r s i f Ir Cr G F Kf. destruct (Re' c' r) as (u & x & -> & Gx); [unfold all_constraints; apply in_or_app; left; exact I|exact Ir|]. destruct Cr as (g & Fg & Ng).
      destruct (mb_features _ _ _ _ Mb (T s) i f G F) as (x2 & g2 & Gx2 & Fx2 & (_ & _ & Kb & _)). rewrite Kf in Kb. cbn in Kb. assert (u = T s) by (rewrite <- Ng; symmetry; exact (get_name _ _ _ R' u x g Gx Fg)). subst u.
      assert (x2 = x) as -> by congruence. assert (g2 = g) as -> by congruence. cbn [leaf_value]. rewrite Fg, Kb. reflexivity. }
    inversion Sp as [? l r ? ? Sl Sr E| | |]. subst. inversion Sl as [| | |ra ? Ca]; subst. inversion Sr as [| | |rb ? Cb]; subst. rewrite <- E in Lv, Vc. unfold value_of in Vc. cbn [meaning] in Vc.
    rewrite (Lv ra "a" 2 (new_feature FBinary (T "a") false [] [])) in Vc; [|cbn; auto|exact Ca|reflexivity|reflexivity|reflexivity]. rewrite (Lv rb "b" 3 (new_feature FBinary (T "b") false [] [])) in Vc; [|cbn; auto|exact Cb|reflexivity|reflexivity|reflexivity]. discriminate.
Qed.
