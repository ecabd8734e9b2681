(** Proofs about saving models to files. *)
From Coq Require Import List ZArith Bool Ascii String Lia.
From Verif Require Import Text TextProofs ConstraintModel ConstraintParserModel ConstraintSpec ConstraintRoundTrip FeatureTreeModel FeatureTreeSpec FeatureTreeExamples FeatureTransactionModel FeatureTransactionSpec FeatureEditSpec FeatureTransactionExamples
  FeatureBuildSpec FeatureBuildExamples SxfmModel SxfmExamples XmlModel XmlWriterModel XmlSpec XmlExamples XmlTripSpec XmlTripFinal XmlTripExamples SampleModel GeneratorModel SaveModel SaveSpec.
Import ListNotations.
Local Open Scope list_scope.

Lemma text_eqb_refl s : text_eqb s s = true.
Proof. apply text_eqb_eq. reflexivity. Qed.
Lemma put_same d p f : put d p f p = f.
Proof. unfold put. rewrite text_eqb_refl. reflexivity. Qed.
Lemma put_other d p f q : q <> p -> put d p f q = d q.
Proof. intros N. unfold put. destruct (text_eqb q p) eqn:E; [apply text_eqb_eq in E; contradiction|reflexivity]. Qed.
Lemma save_file s d d' c q : save (s_order s) (s_heap s) (s_saved s) (s_path s) (s_luck s) d = Some (d', c) ->
  (opened s /\ q = s_path s /\ leaves_file s (d' q)) \/ ((q = s_path s -> ~ opened s) /\ d' q = d q).
Proof.
  unfold save, opened, leaves_file. destruct (s_luck s) as [|rest|n].
  - intros E. injection E as <- _. right. split; [intros _ X; apply X; reflexivity|reflexivity].
  - destruct (write_xml _ _ _) as [e|]; cbn [bind]; [|discriminate]. intros E. injection E as <- _. destruct (text_eqb q (s_path s)) eqn:Q.
    + apply text_eqb_eq in Q. subst q. left. split; [discriminate|]. split; [reflexivity|apply put_same].
    + right. assert (N : q <> s_path s) by (intros ->; rewrite text_eqb_refl in Q; discriminate Q). split; [contradiction|apply put_other; exact N].
  - destruct (write_xml _ _ _) as [e|]; cbn [bind]; [|discriminate]. intros E. injection E as <- _. destruct (text_eqb q (s_path s)) eqn:Q.
    + apply text_eqb_eq in Q. subst q. left. split; [discriminate|]. split; [reflexivity|]. exists e. split; [reflexivity|apply put_same].
    + right. assert (N : q <> s_path s) by (intros ->; rewrite text_eqb_refl in Q; discriminate Q). split; [contradiction|apply put_other; exact N].
Qed.
Lemma last_save : forall ss d d' cs path, save_all ss d = Some (d', cs) -> (never_opened ss path /\ d' path = d path) \/ exists s, last_opened ss path s /\ leaves_file s (d' path).
Proof.
  intros ss. induction ss as [|s r IH]; intros d d' cs path E; cbn [save_all] in E.
  - injection E as <- _. left. split; [intros x []|reflexivity].
  - destruct (save _ _ _ _ _ d) as [(d1 & c)|] eqn:S; cbn [bind] in E; [|discriminate]. destruct (save_all r d1) as [(d2 & cr)|] eqn:A; cbn [bind] in E; [|discriminate]. injection E as <- <-.
    destruct (IH d1 d2 cr path A) as [(N & Eq)|(x & (a & b & -> & P) & L)].
    + destruct (save_file s d d1 c path S) as [(O & Q & L)|(O & Eq1)].
      * right. exists s. split; [exists [], r; split; [reflexivity|]; split; [auto|]; split; [exact O|exact N]|]. rewrite Eq. exact L.
      * left. split; [|congruence]. intros x [<-|I] Q; [apply O; auto|apply N; assumption].
    + right. exists x. split; [exists (s :: a), b; split; [reflexivity|exact P]|exact L].
Qed.
(** The code and the files. *)
Lemma save_code : forall ord h m path l d d' c, save ord h m path l d = Some (d', c) ->
  (forall q, q <> path -> d' q = d q) /\
  ((0 < c)%Z -> exists e, write_xml ord h m = Some e /\ d' path = Document e) /\
  ((c < 0)%Z <-> exists rest, l = Broken rest) /\
  (c = 0%Z -> d' path = d path \/ exists e, write_xml ord h m = Some e /\ d' path = Document e).
Proof.
  intros ord h m path l d d' c E. unfold save in E. destruct l as [|rest|n].
  - injection E as <- <-. split; [reflexivity|]. split; [lia|]. split; [split; [lia|intros (x & X); discriminate X]|left; reflexivity].
  - destruct (write_xml ord h m) as [e|]; cbn [bind] in E; [|discriminate]. injection E as <- <-. split; [intros q N; apply put_other; exact N|]. split; [lia|]. split; [split; [eauto|lia]|lia].
  - destruct (write_xml ord h m) as [e|] eqn:W; cbn [bind] in E; [|discriminate]. injection E as <- <-. split; [intros q N; apply put_other; exact N|]. assert (X : exists e0, Some e = Some e0 /\ put d path (Document e) path = Document e0) by (exists e; split; [reflexivity|apply put_same]).
    split; [intros _; exact X|]. split; [split; [lia|intros (x & Y); discriminate Y]|]. intros _. right. exact X.
Qed.
(** What was saved last is loaded. *)
Lemma saved_loaded : forall ss d d' cs path s n t ord sci step cwd h0, save_all ss d = Some (d', cs) -> last_opened ss path s -> s_luck s = Works n ->
  is_order (s_order s) -> represents (s_heap s) (s_saved s) t -> enrolled (s_heap s) (s_saved s) -> all_resolved (s_saved s) -> writable (s_heap s) (s_saved s) -> is_order ord -> sci_nonneg sci -> heap_ok h0 ->
  exists h' m', verify_model (reading d') path = true /\ load_model ord sci step cwd (reading d') h0 path = SxDone (h', Some m') /\ model_back (s_heap s) (s_saved s) h' m'.
Proof.
  intros ss d d' cs path s n t ord sci step cwd h0 E La Lk O R En Re W O' Sc Ok. destruct (written_and_read (s_order s) ord sci step cwd (s_heap s) (s_saved s) t h0 O O' Sc R En Re W Ok) as (doc & h' & m' & Wr & V & Rd & B & _).
  destruct (last_save ss d d' cs path E) as [(N & _)|(x & La' & Le)].
  - exfalso. destruct La as (a & b & -> & P & Op & _). apply (N s); [apply in_or_app; cbn; auto|exact P|exact Op].
  - assert (x = s) as ->.
    { destruct La as (a & b & -> & P & Op & Af), La' as (a' & b' & Eq & P' & Op' & Af'). clear -Eq P P' Op Op' Af Af'. revert a' Eq. induction a as [|y a IH]; intros [|y' a'] Eq; cbn in Eq.
      - injection Eq as <- _. reflexivity.
      - injection Eq as <- ->. exfalso. apply (Af x); [apply in_or_app; cbn; auto|exact P'|exact Op'].
      - injection Eq as <- <-. exfalso. apply (Af' s); [apply in_or_app; cbn; auto|exact P|exact Op].
      - injection Eq as <- Eq. exact (IH a' Eq). }
    unfold leaves_file in Le. rewrite Lk in Le. destruct Le as (e & W2 & F). assert (e = doc) as -> by congruence. exists h', m'. unfold verify_model, load_model. cbn [reading documents]. rewrite F. auto.
Qed.
(** No file, no complaint. *)
Lemma not_saved : exists ord h m t path l d d' c, is_order ord /\ represents h m t /\ enrolled h m /\ all_resolved m /\ writable h m /\ save ord h m path l d = Some (d', c) /\ (0 <= c)%Z /\
  verify_model (reading d') path = false /\ forall ord' sci step cwd h0, load_model ord' sci step cwd (reading d') h0 path = SxRefused.
Proof.
  destruct trip_example as (O & _ & R & En & Re & W & _). exists order, heap11, model11, tree11, (T "f.xml"%string), Closed, (fun _ => Missing), (fun _ => Missing), 0%Z.
  split; [exact O|]. split; [exact R|]. split; [exact En|]. split; [exact Re|]. split; [exact W|]. split; [reflexivity|]. split; [lia|]. split; reflexivity.
Qed.
(** Two models, three files. *)
Definition savings96 : list saving :=
  [Saving order heap11 model11 (T "f.xml"%string) (Works 40); Saving order heap11 model11 (T "g.xml"%string) (Broken Malformed); Saving order heap11 model11 (T "f.xml"%string) Closed; Saving order heap11 model11 (T "h.xml"%string) Closed].
Lemma save_example :
  is_order order /\ sci_nonneg no_sci /\ heap_ok heap0 /\ represents heap11 model11 tree11 /\ enrolled heap11 model11 /\ all_resolved model11 /\ writable heap11 model11 /\
  last_opened savings96 (T "f.xml"%string) (Saving order heap11 model11 (T "f.xml"%string) (Works 40)) /\ never_opened savings96 (T "h.xml"%string) /\
  (let* (d, cs) := save_all savings96 (fun _ => Missing) in Some (map (fun p => verify_model (reading d) (T p)) ["f.xml"; "g.xml"; "h.xml"]%string, cs)) = Some ([true; false; false], [40; -1; 0; 0]%Z).
Proof.
  destruct trip_example as (O & Sc & R & En & Re & W & Ok & _). split; [exact O|]. split; [exact Sc|]. split; [exact Ok|]. split; [exact R|]. split; [exact En|]. split; [exact Re|]. split; [exact W|].
  split; [exists [], (tl savings96); split; [reflexivity|]; split; [reflexivity|]; split; [discriminate|]|].
  - intros x [<-|[<-|[<-|[]]]] P; cbn in P; try discriminate P. intros X. apply X. reflexivity.
  - split; [intros x [<-|[<-|[<-|[<-|[]]]]] P; cbn in P; try discriminate P; intros X; apply X; reflexivity|]. vm_compute. reflexivity.
Qed.
