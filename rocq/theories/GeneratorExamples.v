(** Runs of the configuration generator. *)
From Coq Require Import List ZArith NArith Arith Bool Ascii String Permutation Sorted Lia.
From Verif Require Import Text TextProofs ConstraintModel ConstraintSpec FeatureTreeModel FeatureTreeSpec FeatureTransactionModel
  FeatureEditSpec FeatureTransactionExamples FeatureBuildSpec FeatureBuildExamples SxfmModel SxfmExamples XmlModel XmlWriterModel XmlSpec XmlReadProofs XmlFinal XmlExamples ConfigurationModel ConfigurationSpec SolverModel SolverSpec SolverProofs SolverLoadProofs FeatureTreeProofs SolverExamples
  SampleModel SampleSpec DescribedSpec DescribedFinal DescribedExamples GeneratorModel GeneratorSpec GeneratorFinal.
Import ListNotations.
Local Open Scope string_scope.
Local Open Scope list_scope.
Local Open Scope nat_scope.

(** The document of [DescribedExamples] and a table with two rows. *)
Definition row17 (a n z : string) : text -> text := fun s => if text_eqb s (T "a") then T a else if text_eqb s (T "n") then T n else if text_eqb s (T "z") then T z else [].
Definition table17 : table := Table [T "a"; T "n"; T "z"] [row17 "1" "7" "1"; row17 "0" "-3" "0"].
Definition files17 : files := Files (fun s => if text_eqb s (T "m.xml") then Document doc16 else if text_eqb s (T "bad.xml") then Malformed else Missing)
  (fun s => if text_eqb s (T "s.csv") then Some table17 else None) (fun s => text_eqb s (T "o.yml")).
Definition asg17 (r p a b x : bool) (n : Z) : assignment :=
  Assignment (fun s => if text_eqb s (T "root") then r else if text_eqb s (T "p") then p else if text_eqb s (T "a") then a else if text_eqb s (T "b") then b else if text_eqb s (T "x") then x else false) (fun _ => n) (fun _ => 0%Z).
Definition tried17 : list assignment :=
  flat_map (fun r => flat_map (fun p => flat_map (fun a => flat_map (fun b => flat_map (fun x => map (asg17 r p a b x) [1; -2; 3]%Z) bools) bools) bools) bools) bools.
Definition solver17 : solver :=
  match read16 with Some (h, m) => match SolverModel.load order 9 h m with Some s => s | None => new_solver end | None => new_solver end.
Definition asserted17 : list bterm := Eval vm_compute in s_asserted solver17.
Definition vars17 : list (text * sort) := Eval vm_compute in s_vars solver17.
Lemma state17 : s_asserted solver17 = asserted17 /\ s_vars solver17 = vars17.
Proof. split; vm_compute; reflexivity. Qed.
Lemma decides17 : decides (trying tried17) (s_vars solver17) (s_asserted solver17).
Proof.
  rewrite (proj1 state17), (proj2 state17). apply trying_decides. intros a Sa. exists (asg17 (a_bool a (T "root")) (a_bool a (T "p")) (a_bool a (T "a")) (a_bool a (T "b")) (a_bool a (T "x")) (a_int a (T "n"))). split; [|split].
  - assert (B : forall b, In b bools) by (intros []; [left|right; left]; reflexivity).
    assert (In (a_int a (T "n")) [1; -2; 3]%Z) as I.
    { apply (one_of_eval a (T "n") [1; -2; 3]%Z). apply Sa. unfold asserted17. repeat (first [left; reflexivity|right]). }
    unfold tried17. do 5 (apply in_flat_map; eexists; split; [apply B|]). apply in_map. exact I.
  - intros n t I. unfold vars17 in I. cbn [In] in I. repeat (destruct I as [I|I]; [injection I as <- <-; reflexivity|]). destruct I.
  - intros t It. specialize (Sa t It). refine (eq_trans _ Sa). clear Sa. unfold asserted17 in It. cbn [In] in It. repeat (destruct It as [<-|It]; [reflexivity|]). destruct It.
Qed.
Lemma solves17 : solves order no_sci no_step (T "/tmp") (trying tried17) 9 heap0 doc16.
Proof. exists solver17. split; [vm_compute; reflexivity|exact decides17]. Qed.
Definition run17 (c : command) : ending := generate order no_sci no_step (T "/tmp") (trying tried17) 9 20 heap0 files17 c.
Definition all17 : command := Command (T "m.xml") GenAll [] (T "o.yml").
Definition sample17 : command := Command (T "m.xml") GenSample (T "s.csv") (T "o.yml").

Definition texts (l : list (string * string)) : list (text * text) := map (fun p => (T (fst p), T (snd p))) l.
Lemma generator_example :
  is_order order /\ heap_ok heap0 /\ documents files17 (T "m.xml") = Document doc16 /\ XmlModel.valid doc16 = true /\ stands no_sci no_step (T "/tmp") doc16 calls16 /\ describes calls16 decl16 /\ settled calls16 decl16 (found calls16 decl16) /\
  decides (trying tried17) (s_vars solver17) (s_asserted solver17) /\
  run17 all17 = Exit 0 (Some (texts [("0", "[""-n1"", ""-a"", ""-x""]"); ("1", "[""-n1"", ""-a""]"); ("2", "[""-n(- 2)"", ""-a""]"); ("3", "[""-n1"", ""-x""]"); ("4", "[""-n1""]"); ("5", "[""-n(- 2)""]")])) /\
  run17 sample17 = Exit 0 (Some (texts [("0", "[""-n-3""]"); ("1", "[""-n7"", ""-a""]")])) /\
  run17 (Command (T "bad.xml") GenAll [] (T "o.yml")) = Exit 1 None /\ run17 (Command (T "m.xml") GenStrategy [] (T "o.yml")) = Exit 1 None /\
  run17 (Command (T "m.xml") GenSample [] (T "o.yml")) = Exit 1 None /\ run17 (Command (T "m.xml") GenAll [] (T "elsewhere")) = Exit 1 None /\ run17 (Command (T "m.xml") GenAll [] []) = Exit 0 None.
Proof.
  split; [exact order_ok|]. split; [exact heap0_ok|]. split; [reflexivity|]. split; [vm_compute; reflexivity|]. split; [exact stands16|]. split; [exact describes16|]. split; [exact settled16|]. split; [exact decides17|].
  split; [vm_compute; reflexivity|]. split; [vm_compute; reflexivity|]. split; [vm_compute; reflexivity|]. split; [vm_compute; reflexivity|]. split; [vm_compute; reflexivity|]. split; vm_compute; reflexivity.
Qed.
Lemma listing_example : listing calls16 decl16 (T "root") (map T ["root"; "n"; "p"; "a"; "b"; "x"]).
Proof.
  assert (B : forall fs s, NoDup (map f_name fs) -> fs = filter (fun f => text_eqb (last_edge calls16 (f_name f) (fst decl16)) s) [n16; p16; a16; b16; x16] -> forall f, In f fs <-> below calls16 decl16 s f).
  { intros fs s _ -> f. rewrite filter_In. unfold below. rewrite text_eqb_eq. cbn [In snd decl16]. tauto. }
  assert (L : forall s, filter (fun f => text_eqb (last_edge calls16 (f_name f) (fst decl16)) s) [n16; p16; a16; b16; x16] = [] -> listing calls16 decl16 s [s]).
  { intros s E. apply listing_at with (fs := []); [constructor| |constructor|constructor]. apply B; [constructor|symmetry; exact E]. }
  assert (C : forall f g s, text_ltb (lower (f_name f)) (lower (f_name g)) = true -> f_name g = s -> comes f g) by (intros f g s E _; left; apply text_ltb_spec; exact E).
  change (map T ["root"; "n"; "p"; "a"; "b"; "x"]) with (T "root" :: [T "n"] ++ ([T "p"; T "a"; T "b"] ++ ([T "x"] ++ []))).
  apply listing_at with (fs := [n16; p16; x16]).
  - repeat (constructor; [cbn; intuition discriminate|]). constructor.
  - apply B; [|reflexivity]. repeat (constructor; [cbn; intuition discriminate|]). constructor.
  - repeat (constructor; [|repeat (constructor; [eapply C; [reflexivity|reflexivity]|]); constructor]). constructor.
  - constructor; [apply L; reflexivity|]. constructor; [|constructor; [apply L; reflexivity|constructor]].
    change [T "p"; T "a"; T "b"] with (T "p" :: [T "a"] ++ ([T "b"] ++ [])). apply listing_at with (fs := [a16; b16]).
    + repeat (constructor; [cbn; intuition discriminate|]). constructor.
    + apply B; [|reflexivity]. repeat (constructor; [cbn; intuition discriminate|]). constructor.
    + repeat (constructor; [|repeat (constructor; [eapply C; [reflexivity|reflexivity]|]); constructor]). constructor.
    + constructor; [apply L; reflexivity|]. constructor; [apply L; reflexivity|constructor].
Qed.

(** ** Negative values are written as the solver prints them *)
Fixpoint startsb (p s : text) : bool := match p, s with [], _ => true | x :: p', y :: s' => Ascii.eqb x y && startsb p' s' | _, _ => false end.
Fixpoint infixb (p s : text) : bool := startsb p s || match s with [] => false | _ :: s' => infixb p s' end.
Lemma startsb_app p y : startsb p (p ++ y) = true.
Proof. induction p as [|c p IH]; [reflexivity|]. cbn. rewrite Ascii.eqb_refl. exact IH. Qed.
Lemma infixb_app p x y : infixb p (x ++ p ++ y) = true.
Proof.
  induction x as [|c x IH]; cbn [app]; [|cbn [infixb]; rewrite IH; apply orb_true_r]. pose proof (startsb_app p y) as S. destruct (p ++ y); cbn [infixb]; rewrite S; reflexivity.
Qed.
Definition minus17 : assignment := asg17 true true true false false (-2).
Lemma minus_configures : configures calls16 decl16 (found calls16 decl16) minus17.
Proof.
  assert (Fp : forall s k, found calls16 decl16 s k -> s = T "p" /\ k = RAlternative).
  { intros s k (-> & (f & g & (I & E) & (J & E') & N) & All). split; [|reflexivity]. destruct I as [<-|[<-|[<-|[<-|[<-|[]]]]]]; vm_compute in E; try (symmetry; exact E); exfalso; subst s;
    (destruct (All x16) as (O & _); [split; [left; reflexivity|reflexivity]|discriminate O]). }
  assert (Nx : ~ numeric_name decl16 (T "x")) by (apply switch16; discriminate). assert (Na : ~ numeric_name decl16 (T "a")) by (apply switch16; discriminate). assert (Nb : ~ numeric_name decl16 (T "b")) by (apply switch16; discriminate).
  constructor.
  - reflexivity.
  - intros f X K Se. destruct X as [<-|[<-|[<-|[<-|[<-|[]]]]]]; try discriminate Se; try discriminate K; reflexivity.
  - intros f X K Op Ng Se. destruct X as [<-|[<-|[<-|[<-|[<-|[]]]]]]; try discriminate Op; try discriminate K; try reflexivity. exfalso. apply (Ng RAlternative). split; [reflexivity|exact alternatives16].
  - intros s Fd Se. apply Fp in Fd. destruct Fd as (-> & _). exists a16. split; [split; cbn; auto|]. split; [reflexivity|]. intros g (X & E) Sg. destruct X as [<-|[<-|[<-|[<-|[<-|[]]]]]]; vm_compute in E; try discriminate E; try discriminate Sg. reflexivity.
  - intros s Fd. apply Fp in Fd. destruct Fd as (_ & Fd). discriminate.
  - intros f v st X K. destruct X as [<-|[<-|[<-|[<-|[<-|[]]]]]]; try discriminate K. injection K as <- <-. cbn. auto.
  - intros k e X K. cbn in X. repeat (destruct X as [X|X]; [injection X as <- <-; first [destruct K; discriminate|idtac]|]); [| | | |destruct X].
    + eapply hv_truths; [constructor; apply nv_truth; auto|constructor; apply nv_truth; auto|reflexivity].
    + eapply hv_truths; [constructor; apply nv_truth; auto|constructor; apply nv_truth; auto|reflexivity].
    + eapply hv_truths; [constructor; apply nv_truth; auto|apply hv_not; constructor; apply nv_truth; auto|reflexivity].
    + eapply hv_numbers; [constructor; apply nv_number; exact number16|constructor|reflexivity].
  - intros r k e X. cbn in X. repeat (destruct X as [X|X]; [first [discriminate X|injection X as <- <- <-]|]); [|destruct X]. right. split; [reflexivity|]. exists (T "x"). cbn. auto.
Qed.
Lemma negative_garbled :
  exists ord sci step cwd check fuel fuel' h w c e cs d es a f, is_order ord /\ heap_ok h /\ documents w (g_file c) = Document e /\ XmlModel.valid e = true /\ stands sci step cwd e cs /\ describes cs d /\ settled cs d (found cs d) /\ solves ord sci step cwd check fuel h e /\
    generate ord sci step cwd check fuel fuel' h w c = Exit 0 (Some es) /\ configures cs d (found cs d) a /\ In f (snd d) /\ numeric_kind (f_kind f) = true /\ f_output f <> [] /\
    forall k v x y, In (k, v) es -> v <> x ++ (f_output f ++ print_Z (a_int a (f_name f))) ++ y.
Proof.
  exists order, no_sci, no_step, (T "/tmp"), (trying tried17), 9, 20, heap0, files17, all17, doc16, calls16, decl16.
  exists (texts [("0", "[""-n1"", ""-a"", ""-x""]"); ("1", "[""-n1"", ""-a""]"); ("2", "[""-n(- 2)"", ""-a""]"); ("3", "[""-n1"", ""-x""]"); ("4", "[""-n1""]"); ("5", "[""-n(- 2)""]")]), minus17, n16.
  destruct generator_example as (E1 & E2 & E3 & E4 & E5 & E6 & E7 & _). split; [exact E1|]. split; [exact E2|]. split; [exact E3|]. split; [exact E4|]. split; [exact E5|]. split; [exact E6|]. split; [exact E7|]. split; [exact solves17|]. split; [vm_compute; reflexivity|].
  split; [exact minus_configures|]. split; [cbn; auto 8|]. split; [reflexivity|]. split; [discriminate|].
  change (f_output n16 ++ print_Z (a_int minus17 (f_name n16))) with (T "-n-2"). intros k v x y I E. assert (infixb (T "-n-2") v = true) as X by (rewrite E; apply infixb_app). cbn in I.
  repeat (destruct I as [I|I]; [injection I as _ <-; discriminate X|]). destruct I.
Qed.

(** ** Different configurations with equal entries *)
Definition doc18 : xml := Elem (T "vm") [(T "name", T "m")] []
  [elem "binaryOptions" [opt [leaf_elem "name" (T "root")]; opt [leaf_elem "name" (T "x"); leaf_elem "parent" (T "root"); leaf_elem "optional" (T "True")]]].
Definition x18 : feature := new_feature FBinary (T "x") true [] [].
Definition calls18 : list bcall := [BName (T "m"); BPath (T "/tmp"); BCommit []; BRoot (T "root"); BEdge (T "root") (T "x"); BFeature x18].
Definition decl18 : decl := (T "root", [x18]).
Definition files18 : files := Files (fun s => if text_eqb s (T "m.xml") then Document doc18 else Missing) (fun _ => None) (fun s => text_eqb s (T "o.yml")).
Definition asg18 (r x : bool) : assignment := Assignment (fun s => if text_eqb s (T "root") then r else x) (fun _ => 0%Z) (fun _ => 0%Z).
Definition tried18 : list assignment := flat_map (fun r => map (asg18 r) bools) bools.
Lemma describes18 : describes calls18 decl18.
Proof.
  constructor.
  - unfold calls18. do 3 (apply dec_other; [exact I|]). apply dec_same. apply dec_other; [exact I|]. apply dec_feature; [vm_compute; intuition congruence|]. apply dec_nil.
  - intros c X. repeat (destruct X as [<-|X]; [first [exact I|discriminate]|]). destruct X.
  - intros c X. repeat (destruct X as [<-|X]; [first [exact I|vm_compute; intuition congruence]|]). destruct X.
  - intros p s X. repeat (destruct X as [E|X]; [first [discriminate E|injection E as <- <-; vm_compute; discriminate]|]). destruct X.
  - intros f X. destruct X as [<-|[]]. apply leads_up. change (leads (fun s => last_edge calls18 s (fst decl18)) (fst decl18) (fst decl18)). apply leads_root.
  - intros c X. repeat (destruct X as [<-|X]; [exact I|]). destruct X.
  - constructor.
Qed.
Lemma settled18 : settled calls18 decl18 (found calls18 decl18).
Proof.
  constructor.
  - intros f X. destruct X as [<-|[]]; discriminate.
  - intros f X K (g & [<-|[]] & _ & N). discriminate.
  - intros s (_ & (f & g & A & _) & _). eauto.
  - intros f v st X K. destruct X as [<-|[]]; discriminate K.
  - intros k e a [].
  - intros r k e a [].
  - intros k e [].
Qed.
Definition solver18 : solver := Eval vm_compute in
  match read_xml order no_sci no_step (T "/tmp") heap0 doc18 with SxDone (h, Some m) => match SolverModel.load order 9 h m with Some s => s | None => new_solver end | _ => new_solver end.
Lemma decides18 : decides (trying tried18) (s_vars solver18) (s_asserted solver18).
Proof.
  apply trying_decides. intros a Sa. exists (asg18 (a_bool a (T "root")) (a_bool a (T "x"))). split; [|split].
  - assert (B : forall b, In b bools) by (intros []; [left|right; left]; reflexivity). unfold tried18. apply in_flat_map. eexists. split; [apply B|]. apply in_map. apply B.
  - intros n t I. cbn in I. repeat (destruct I as [I|I]; [injection I as <- <-; reflexivity|]). destruct I.
  - intros t It. specialize (Sa t It). refine (eq_trans _ Sa). clear Sa. cbn in It. repeat (destruct It as [<-|It]; [reflexivity|]). destruct It.
Qed.
Lemma solves18 : solves order no_sci no_step (T "/tmp") (trying tried18) 9 heap0 doc18.
Proof. exists solver18. split; [vm_compute; reflexivity|exact decides18]. Qed.
Lemma entries_alike :
  exists ord sci step cwd check fuel fuel' h w c e cs d es k k' v, is_order ord /\ heap_ok h /\ documents w (g_file c) = Document e /\ XmlModel.valid e = true /\ stands sci step cwd e cs /\ describes cs d /\ settled cs d (found cs d) /\ solves ord sci step cwd check fuel h e /\
    generate ord sci step cwd check fuel fuel' h w c = Exit 0 (Some es) /\ k <> k' /\ In (k, v) es /\ In (k', v) es.
Proof.
  exists order, no_sci, no_step, (T "/tmp"), (trying tried18), 9, 20, heap0, files18, all17, doc18, calls18, decl18, (texts [("0", "[]"); ("1", "[]")]), (T "0"), (T "1"), (T "[]").
  split; [exact order_ok|]. split; [exact heap0_ok|]. split; [reflexivity|]. split; [vm_compute; reflexivity|]. split; [apply read_vm_iff; vm_compute; reflexivity|]. split; [exact describes18|]. split; [exact settled18|]. split; [exact solves18|].
  split; [vm_compute; reflexivity|]. split; [discriminate|]. split; [left; reflexivity|right; left; reflexivity].
Qed.
