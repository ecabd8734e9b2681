(** Reading whole SXFM documents: the results. *)
From Coq Require Import List ZArith NArith Arith Bool Ascii String Permutation Lia.
From Verif Require Import Text TextProofs ConstraintModel ConstraintSpec FeatureTreeModel FeatureTreeSpec FeatureTransactionModel FeatureEditSpec FeatureTransactionExamples FeatureBuildSpec FeatureBuildFinal FeatureBuildExamples
  XmlModel SxfmModel SxfmSpec SxfmFormulaSpec SxfmFinal SxfmExamples ConfigurationModel SolverModel SolverSpec SxfmConfigSpec SxfmConfigFinal SxfmConfigExamples SxfmDocModel SxfmDocSpec SxfmDocProofs.
Import ListNotations.
Local Open Scope string_scope.
Local Open Scope list_scope.
Local Open Scope nat_scope.

Theorem whole_document_read ord sci order or_first h e n i ind t c es cs :
  is_order ord -> (forall l, Permutation (order l) l) -> heap_ok h -> sxfm_document (Some n) i t c e ->
  ind = match i with Some x => x | None => [ascii_of_nat 9] end -> indentation_ok ind ->
  (forall x, In x es -> entry_ok x /\ id_apart x) -> tree_ok es -> tree_text ind es t ->
  match c with Some x => constraints_text es cs x | None => cs = [] end -> names_known es cs ->
  verify_sxfm e = true /\ exists k, forall fuel, k <= fuel -> exists h' m, read_document sci order fuel or_first ord h e = SxDone (h', Some m) /\ heap_ok h' /\
    m_name m = n /\ as_indented es h' m /\
    Forall2 (fun c x => c_expr x = cmap (fun s => pointing m (Own (T s))) c) cs (m_boolean m) /\ m_nonboolean m = [] /\ m_mixed m = [].
Proof.
  intros O P K D Ei I E Tr Tt C N. split; [exact (document_valid_doc _ _ _ _ _ D)|].
  destruct (document_read ord sci order or_first h (Document (Some n) i t c) n ind es cs O P K eq_refl Ei I E Tr Tt C N) as (k & R).
  exists k. intros fuel L. destruct (R fuel L) as (h' & m & R'). exists h', m. rewrite (read_document_eq _ _ _ _ _ _ _ _ _ _ _ D). exact R'.
Qed.
Theorem whole_document_enumerated ord ord' check sci order or_first h e n i ind t c es cs :
  is_order ord -> is_order ord' -> (forall l, Permutation (order l) l) -> heap_ok h -> sxfm_document (Some n) i t c e ->
  ind = match i with Some x => x | None => [ascii_of_nat 9] end -> indentation_ok ind ->
  (forall x, In x es -> entry_ok x /\ id_apart x) -> tree_ok es -> tree_text ind es t ->
  match c with Some x => constraints_text es cs x | None => cs = [] end -> names_known es cs ->
  inhabited_groups es -> (forall c, In c cs -> ~ negates c) ->
  exists k, forall fuel, k <= fuel -> exists h' m, read_document sci order fuel or_first ord h e = SxDone (h', Some m) /\
    exists N, forall fuel', N <= fuel' -> exists s, SolverModel.load ord' fuel' h' m = Some s /\
      (decides check (s_vars s) (s_asserted s) -> exists M, forall fuel'', M <= fuel'' -> answers_stated es cs (get_all check fuel'' s)).
Proof.
  intros O O' P K D Ei I E Tr Tt C N G F.
  destruct (document_enumerated ord ord' check sci order or_first h (Document (Some n) i t c) n ind es cs O O' P K eq_refl Ei I E Tr Tt C N G F) as (k & R).
  exists k. intros fuel L. destruct (R fuel L) as (h' & m & R'). exists h', m. rewrite (read_document_eq _ _ _ _ _ _ _ _ _ _ _ D). exact R'.
Qed.

(** Only documents with a name and the declared shape give a model. *)
Theorem documents_needed sci order fuel or_first ord h e r : well_formed e -> read_document sci order fuel or_first ord h e = SxDone r ->
  verify_sxfm e = true /\ ((exists n i t c, sxfm_document (Some n) i t c e) \/ exists n, sxfm_fragment (Some n) e).
Proof.
  intros W R. destruct (sxfm_valid e) eqn:V; [|unfold read_document in R; rewrite V in R; discriminate].
  split; [exact V|]. apply (valid_iff e W) in V. destruct V as [(n & i & t & c & D)|(o & F)].
  - left. destruct n as [n|]; [eauto 6|]. rewrite (read_document_eq _ _ _ _ _ _ _ _ _ _ _ D) in R. discriminate.
  - right. destruct o as [n|]; [eauto|]. rewrite (fragment_read _ _ _ _ _ _ _ _ F) in R. discriminate.
Qed.
Theorem invalid_refused sci order fuel or_first ord h e : well_formed e -> (forall n i t c, ~ sxfm_document n i t c e) -> (forall o, ~ sxfm_fragment o e) ->
  verify_sxfm e = false /\ read_document sci order fuel or_first ord h e = SxRefused.
Proof.
  intros W D F. destruct (sxfm_valid e) eqn:V.
  - apply (valid_iff e W) in V. destruct V as [(n & i & t & c & X)|(o & X)]; [destruct (D _ _ _ _ X)|destruct (F _ X)].
  - split; [exact V|]. unfold read_document. rewrite V. reflexivity.
Qed.
(** Without a name reading is undefined. *)
Theorem nameless_undefined sci order fuel or_first ord h e : (exists i t c, sxfm_document None i t c e) \/ sxfm_fragment None e ->
  verify_sxfm e = true /\ read_document sci order fuel or_first ord h e = SxUndefined.
Proof.
  intros [(i & t & c & D)|F].
  - split; [exact (document_valid_doc _ _ _ _ _ D)|]. rewrite (read_document_eq _ _ _ _ _ _ _ _ _ _ _ D). reflexivity.
  - rewrite (fragment_read _ _ _ _ _ _ _ _ F). split; [|reflexivity].
    pose proof (fragment_read sci order fuel or_first ord h e None F) as R. unfold read_document in R. unfold verify_sxfm. destruct (sxfm_valid e); [reflexivity|discriminate].
Qed.
(** Meta data and layout make no difference. *)
Theorem meta_ignored sci order fuel or_first ord h e e' n i t c : sxfm_document n i t c e -> sxfm_document n i t c e' ->
  read_document sci order fuel or_first ord h e = read_document sci order fuel or_first ord h e'.
Proof. intros D D'. rewrite (read_document_eq _ _ _ _ _ _ _ _ _ _ _ D), (read_document_eq _ _ _ _ _ _ _ _ _ _ _ D'). reflexivity. Qed.

(** A [data] element as root: a model with nothing but the root. *)
Lemma describes_name n : describes [BName n] (default_root, []).
Proof.
  constructor.
  - apply dec_other; [exact Logic.I|constructor].
  - intros c [<-|[]]. exact Logic.I.
  - intros c [<-|[]]. exact Logic.I.
  - intros p s [X|[]]. discriminate X.
  - intros f [].
  - intros c [<-|[]]. exact Logic.I.
  - constructor.
Qed.
Theorem data_read sci order fuel or_first ord h n b : is_order ord -> heap_ok h ->
  exists h' m, read_document sci order fuel or_first ord h (Elem (T "data") [(T "name", n)] b []) = SxDone (h', Some m) /\
    m_name m = n /\ map fst (m_features m) = [T "root"] /\ m_boolean m = [].
Proof.
  intros O K. destruct (built ord O h [BName n] (default_root, []) K (describes_name n)) as (h' & m & E & A & _).
  exists h', m. rewrite (fragment_read _ _ _ _ _ _ _ _ (fragment_data n b)), E. split; [reflexivity|].
  split; [exact (ad_name _ _ _ _ A)|]. split.
  - pose proof (ad_names _ _ _ _ A) as Q. cbn [fst snd map] in Q. apply Permutation_sym, Permutation_length_1_inv in Q. exact Q.
  - pose proof (ad_boolean _ _ _ _ A) as Q. inversion Q. reflexivity.
Qed.

(** ** Examples *)
Definition document21 (n : option text) (ms : list xml) : xml :=
  Elem (T "feature_model") (given "name" n) [] (ms ++ [Elem (T "feature_tree") [] text1 []; Elem (T "constraints") [] constraints20 []]).
Definition meta21 : xml := Elem (T "meta") [] (T " ") [Elem (T "data") [(T "name", T "creator")] (T "me") []; Elem (T "data") [(T "name", T "date")] [] []].
Lemma document21_ok n ms : ms = [] \/ ms = [meta21] -> sxfm_document n None text1 (Some constraints20) (document21 n ms).
Proof.
  intros M. apply (sxfm_document_elem n None text1 (Some constraints20) [] ms); [intros c []|]. destruct M as [-> | ->]; [left; reflexivity|].
  right. exists meta21. split; [reflexivity|]. constructor; [intros c [<-|[]]; left; reflexivity|]. repeat constructor.
Qed.
Ltac formed := repeat match goal with
  | |- well_formed _ => apply well_formed_elem | |- Forall _ [] => apply Forall_nil | |- Forall _ (_ :: _) => apply Forall_cons
  | |- NoDup _ => cbn [map fst given]; constructor | |- ~ _ => cbn; intuition discriminate end.
Lemma well_formed21 n ms : ms = [] \/ ms = [meta21] -> well_formed (document21 n ms).
Proof.
  intros M. constructor; [destruct n; cbn; repeat constructor; auto|]. apply Forall_app. split.
  - destruct M as [-> | ->]; unfold meta21; formed.
  - formed.
Qed.
Lemma document21_example :
  well_formed (document21 (Some (T "cars")) [meta21]) /\ sxfm_document (Some (T "cars")) None text1 (Some constraints20) (document21 (Some (T "cars")) [meta21]) /\
  sxfm_document (Some (T "cars")) None text1 (Some constraints20) (document21 (Some (T "cars")) []) /\
  (let* (h, m) := SxfmExamples.outcome (read_document no_sci (@rev _) 9 true order heap0 (document21 (Some (T "cars")) [meta21])) in
   let* a := get_feature m (T "AM") in let* c := h_cells h a in let* q := n_parent c in let* d := h_cells h q in let* p := n_parent d in let* n := name_at h p in
   Some (n, n_data d, m_name m, List.length (m_boolean m))) = Some (T "group_1", NRelationship RAlternative, T "cars", 1).
Proof.
  split; [apply well_formed21; auto|]. split; [apply document21_ok; auto|]. split; [apply document21_ok; auto|]. vm_compute. reflexivity.
Qed.

(** Not every verified document is read: without a name the behaviour is undefined. *)
Theorem verified_defined_refuted : exists e, well_formed e /\ verify_sxfm e = true /\
  forall sci order fuel or_first ord h, read_document sci order fuel or_first ord h e = SxUndefined.
Proof.
  exists (document21 None [meta21]). split; [apply well_formed21; auto|].
  assert (D : exists i t c, sxfm_document None i t c (document21 None [meta21])) by (do 3 eexists; apply document21_ok; auto).
  split; [exact (proj1 (nameless_undefined no_sci (fun l => l) 0 true order heap0 _ (or_introl D)))|]. intros.
  exact (proj2 (nameless_undefined sci order fuel or_first ord h _ (or_introl D))).
Qed.
(** Nor does verification look at the tree. *)
Theorem verified_read_refuted : exists e, well_formed e /\ verify_sxfm e = true /\
  forall sci order fuel or_first ord h, read_document sci order fuel or_first ord h e = SxRefused.
Proof.
  exists (Elem (T "feature_model") [(T "name", T "m")] [] [Elem (T "feature_tree") [] (T "no tree") []]).
  split; [formed|]. split; [reflexivity|]. intros. reflexivity.
Qed.
(** And a model can come from a document that is not a feature model. *)
Theorem only_models_refuted : exists e, well_formed e /\ (forall n i t c, ~ sxfm_document n i t c e) /\
  forall sci order fuel or_first ord h, is_order ord -> heap_ok h ->
    exists h' m, read_document sci order fuel or_first ord h e = SxDone (h', Some m) /\ m_name m = T "creator" /\ map fst (m_features m) = [T "root"].
Proof.
  exists (Elem (T "data") [(T "name", T "creator")] (T "me") []). split; [formed|].
  split; [intros n i t c D; inversion D|]. intros sci order' fuel or_first ord h O K.
  destruct (data_read sci order' fuel or_first ord h (T "creator") (T "me") O K) as (h' & m & E & A & B & _). eauto.
Qed.
(** Constraints before the tree: refused. *)
Definition document22 : xml := Elem (T "feature_model") [(T "name", T "m")] [] [Elem (T "constraints") [] [] []; Elem (T "feature_tree") [] text1 []].
Lemma document22_example : well_formed document22 /\ (forall n i t c, ~ sxfm_document n i t c document22) /\ (forall o, ~ sxfm_fragment o document22).
Proof.
  assert (W : well_formed document22) by (unfold document22; formed). split; [exact W|]. split.
  - intros n i t c D. assert (V : sxfm_valid document22 = true) by (apply (valid_iff _ W); left; eauto). discriminate V.
  - intros o F. assert (V : sxfm_valid document22 = true) by (apply (valid_iff _ W); right; eauto). discriminate V.
Qed.
