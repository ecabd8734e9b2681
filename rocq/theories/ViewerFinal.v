(** What the viewer shows. *)
From Coq Require Import List ZArith NArith Arith Bool Ascii String Permutation Lia.
From Verif Require Import Text TextProofs ConstraintModel ConstraintSpec ConstraintHeapSpec SourceRangeModel FeatureTreeModel FeatureTreeSpec FeatureTransactionModel FeatureEditSpec
  FeatureBuildSpec SxfmModel XmlModel XmlSpec XmlDetectFinal XmlFinal SolverSpec DescribedSpec DescribedFinal XmlTextSpec
  RegisterSpec RegisterFinal RegisterDrawProofs GeneratorModel GraphvizModel GraphvizSpec DumpModel DumpSpec DumpProofs DumpFinal ViewerModel ViewerSpec ViewerDumpProofs ViewerDrawProofs.
Import ListNotations.
Local Open Scope list_scope.

Section Viewer.
Variables (ord : list nid -> list nid) (sci : text -> option text) (step : text -> sx (option (Z -> option Z))) (map_order : list (text * nid) -> list (text * nid)) (ptr : nid -> text) (this cwd : text).
Hypothesis ord_ok : is_order ord.
Hypothesis map_order_ok : forall l, Permutation (map_order l) l.
Notation view := (view ord sci step map_order ptr this cwd).

Lemma last_name_groups cs ps x : last_name (cs ++ groups_at ps) x = last_name cs x.
Proof. revert x. induction cs as [|c cs IH]; intros x; cbn [app last_name]; [|destruct c; apply IH]. induction ps as [|p ps IH]; [reflexivity|exact IH]. Qed.

Lemma document_shown h e cs d : heap_ok h -> XmlModel.valid e = true -> stands sci step cwd e cs -> describes cs d ->
  exists h' m', read_xml ord sci step cwd h e = SxDone (h', Some m') /\
    (exists es, dump_model map_order h' m' = Some (dumped es) /\ tells_all cs d es) /\
    (exists g, write_graph ptr this h' m' [] = Some g /\ pictured ptr this cs d g).
Proof.
  intros K V Sd De. destruct (read_described ord sci step ord_ok cwd h e cs d K V Sd De) as (h' & m' & t & cs' & E & R & AD & DE & Ed & Co & Gr).
  destruct (document_means ord sci step ord_ok cwd h e cs d K V Sd De) as (h2 & m2 & ps & E2 & _ & _ & _ & A2 & _ & _ & Re). rewrite E in E2. injection E2 as <- <-.
  exists h', m'. split; [exact E|]. pose proof (ob_xml ord sci step cwd h e h' m' K E) as Ob. split.
  - destruct (dump_lists map_order h' m' t R map_order_ok) as (es & D & L). exists es. split; [exact D|]. exact (entries_tell cs' cs d h' m' t R AD DE Ed Gr es L).
  - destruct (obtained_drawn ord ptr this h' m' t [] Ob R Re) as (start & its & g & W & Hd & Gt & Dr). exists g. split; [exact W|]. exists start, its. split; [|split; [exact Gt|exact (drawings_picture cs' cs d h' m' t R AD DE Ed Co Gr (obtained_registered ord h' m' Ob) its Dr)]].
    rewrite (ad_name _ _ _ _ A2), last_name_groups in Hd. exact Hd.
Qed.

Lemma viewing_starts y c h e : v_file c <> [] -> documents (y_files y) (v_file c) = Document e -> XmlModel.valid e = true ->
  view y c h = match read_xml ord sci step cwd h e with
    | SxThrown | SxUndefined | SxEndless => ViewStuck
    | SxRefused | SxDone (_, None) => Viewed 1 [] None NotShown
    | SxDone (h1, Some m) => if v_dump c then match dump_model map_order h1 m with Some t => Viewed 0 t None NotShown | None => ViewStuck end else view_graph ptr this y c h1 m
    end.
Proof.
  intros N D V. unfold ViewerModel.view, verify_model, load_model. rewrite D, V. apply text_eqb_neq in N. rewrite N, andb_false_r. reflexivity.
Qed.

Section Described.
Variables (y : system) (c : view_command) (h : heap) (e : xml) (cs : list bcall) (d : decl).
Hypothesis K : heap_ok h.
Hypothesis N : v_file c <> [].
Hypothesis D : documents (y_files y) (v_file c) = Document e.
Hypothesis V : XmlModel.valid e = true.
Hypothesis Sd : stands sci step cwd e cs.
Hypothesis De : describes cs d.

Lemma dumping : v_dump c = true -> exists es, view y c h = Viewed 0 (dumped es) None NotShown /\ tells_all cs d es.
Proof.
  intros Du. rewrite (viewing_starts y c h e N D V). destruct (document_shown h e cs d K V Sd De) as (h' & m' & -> & (es & E & Te) & _). rewrite Du, E. exists es. auto.
Qed.
Lemma writing : v_dump c = false -> v_out c <> [] -> can_write (y_files y) (v_out c) = true ->
  exists g, view y c h = Viewed 0 [] (Some (v_out c, g)) NotShown /\ pictured ptr this cs d g.
Proof.
  intros Du Ne W. rewrite (viewing_starts y c h e N D V). destruct (document_shown h e cs d K V Sd De) as (h' & m' & -> & _ & g & E & P). rewrite Du. unfold view_graph. rewrite W, E. exists g. destruct (v_out c); [contradiction|]. auto.
Qed.
Lemma displaying f : v_dump c = false -> v_out c = [] -> y_temporary y = Some f ->
  exists g s, view y c h = Viewed 0 [] (Some (f, g)) s /\ pictured ptr this cs d g /\
    (forall q, v_viewer c <> [] -> y_programs y (v_viewer c) = Some q -> s = ShownBy q) /\ (v_viewer c = [] \/ y_programs y (v_viewer c) = None -> s = ShownSomehow).
Proof.
  intros Du O Tm. rewrite (viewing_starts y c h e N D V). destruct (document_shown h e cs d K V Sd De) as (h' & m' & -> & _ & g & E & P). rewrite Du. unfold view_graph. rewrite O, Tm, E. eexists g, _. split; [reflexivity|]. split; [exact P|]. destruct (v_viewer c) as [|a v].
  - split; [intros q F; contradiction|reflexivity].
  - split; [intros q _ ->; reflexivity|]. intros [F| ->]; [discriminate F|reflexivity].
Qed.
Lemma failing : (exists out file s, view y c h = Viewed 1 out file s) <-> v_dump c = false /\ v_out c = [] /\ y_temporary y = None.
Proof.
  rewrite (viewing_starts y c h e N D V). destruct (document_shown h e cs d K V Sd De) as (h' & m' & -> & (es & E & _) & g & G & P). unfold view_graph. rewrite E, G. split.
  - intros (out & file & s & Q). destruct (v_dump c); [discriminate Q|]. destruct (v_out c); [|destruct (can_write _ _); discriminate Q]. destruct (y_temporary y); [discriminate Q|auto].
  - intros (-> & -> & ->). eauto.
Qed.
End Described.

(** Other files are refused. *)
Lemma refusing y c h : v_file c = [] \/ (forall e, documents (y_files y) (v_file c) = Document e -> XmlModel.valid e = false) -> view y c h = Viewed 1 [] None NotShown.
Proof.
  intros A. unfold ViewerModel.view. destruct (text_eqb (v_file c) []) eqn:E; [reflexivity|]. destruct A as [A|A]; [apply text_eqb_eq in A; congruence|].
  unfold verify_model, load_model. destruct (documents (y_files y) (v_file c)) as [| |e]; [destruct (v_verify c); reflexivity|destruct (v_verify c); reflexivity|].
  unfold read_xml. rewrite (A e eq_refl). destruct (v_verify c); reflexivity.
Qed.
Lemma verifying y c h b : view y (ViewCommand (v_file c) b (v_viewer c) (v_out c) (v_dump c)) h = view y c h.
Proof.
  unfold ViewerModel.view. cbn [v_file v_verify v_dump]. destruct (text_eqb (v_file c) []); [reflexivity|].
  unfold verify_model, load_model, view_graph. destruct (documents (y_files y) (v_file c)) as [| |e]; [destruct (v_verify c), b; reflexivity|destruct (v_verify c), b; reflexivity|].
  destruct (XmlModel.valid e) eqn:V; [rewrite !andb_false_r; reflexivity|]. unfold read_xml. rewrite V. destruct (v_verify c), b; reflexivity.
Qed.
(** Nothing but the given file or a temporary one is written. *)
Lemma writes y c h code out f g s : view y c h = Viewed code out (Some (f, g)) s -> code = 0 /\ out = [] /\ v_dump c = false /\
  ((v_out c <> [] /\ f = v_out c /\ s = NotShown) \/ (v_out c = [] /\ y_temporary y = Some f /\ s <> NotShown)).
Proof.
  unfold ViewerModel.view. intros E. destruct (text_eqb _ _); [discriminate E|]. destruct (_ && _); [discriminate E|]. destruct (load_model _ _ _ _ _ _ _) as [(h1 & [m|])| | | |]; try discriminate E. destruct (v_dump c); [destruct (dump_model _ _ _); discriminate E|].
  unfold view_graph in E. destruct (v_out c) as [|a o].
  - destruct (y_temporary y) as [t|]; [|discriminate E]. destruct (write_graph _ _ _ _ _); [|discriminate E]. injection E as <- <- <- <- <-. do 3 (split; [reflexivity|]). right. split; [reflexivity|]. split; [reflexivity|]. destruct (v_viewer c); [discriminate|]. destruct (y_programs _ _); discriminate.
  - destruct (can_write _ _); [|discriminate E]. destruct (write_graph _ _ _ _ _); [|discriminate E]. injection E as <- <- <- <- <-. do 3 (split; [reflexivity|]). left. split; [discriminate|]. auto.
Qed.
End Viewer.
