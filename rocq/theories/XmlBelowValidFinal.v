(** Models with nobody called root or base, written and read back, have the same valid
    configurations and are enumerated alike, with the new root selected. *)
From Coq Require Import List ZArith Arith Bool Ascii String Permutation Lia.
From Verif Require Import Text TextProofs ConstraintModel ConstraintSpec ConstraintRoundTrip FeatureTreeModel FeatureTreeSpec FeatureTreeProofs FeatureTransactionModel FeatureTransactionSpec FeatureEditSpec FeatureEditProofs
  FeatureHistoryProofs FeatureBuildSpec FeatureCloneSpec FeatureCloneProofs SxfmModel XmlModel XmlWriterModel XmlSpec XmlTripSpec ConfigurationModel SolverModel SolverSpec SolverProofs SolverLoadProofs SolverEncodingProofs
  SolverEnumerationProofs SolverFinal ValidSpec ValidProofs ValidFinal EditValidSpec EditValidOps EditValidFinal XmlBelowSpec XmlBelowValidProofs XmlBelowFinal.
Import ListNotations.
Local Open Scope string_scope.
Local Open Scope list_scope.

Lemma shorter_by (Rel : config -> config -> Prop) (l k : list config) : (forall i j c d, nth_error l i = Some c -> nth_error l j = Some d -> i <> j -> exists n, option_value c n <> option_value d n) ->
  (forall c c' d, Rel c d -> Rel c' d -> same_options c c') ->
  (forall c, In c l -> exists d, In d k /\ Rel c d) -> List.length l <= List.length k.
Proof.
  intros D F. revert k D. induction l as [|c l IH]; intros k D H; cbn [List.length]; [lia|]. destruct (H c (or_introl eq_refl)) as (d & I & E). apply in_split in I. destruct I as (k1 & k2 & ->).
  rewrite app_length. cbn [List.length]. rewrite Nat.add_succ_r. apply le_n_S. rewrite <- app_length. apply IH.
  - intros i j x y Ei Ej N. apply (D (S i) (S j) x y Ei Ej). lia.
  - intros x I. destruct (H x (or_intror I)) as (y & J & Ey). apply in_app_or in J. destruct J as [J|[<-|J]]; [exists y; split; [apply in_or_app; auto|exact Ey]| |exists y; split; [apply in_or_app; auto|exact Ey]].
    exfalso. destruct (In_nth_error _ _ I) as (j & Ej). destruct (D 0 (S j) c x eq_refl Ej) as (n & X); [lia|]. apply X. exact (F c x d E Ey n).
Qed.
Lemma with_root_left c c' d : with_root c d -> with_root c' d -> same_options c c'.
Proof. intros (A & _ & B) (A' & _ & B') n. destruct (list_eq_dec ascii_dec n (T "root")) as [-> | N]; [congruence|]. rewrite <- (B n N), <- (B' n N). reflexivity. Qed.
Lemma with_root_right c d d' : with_root c d -> with_root c d' -> same_options d d'.
Proof. intros (_ & A & B) (_ & A' & B') n. destruct (list_eq_dec ascii_dec n (T "root")) as [-> | N]; [congruence|]. rewrite (B n N), (B' n N). reflexivity. Qed.

Lemma shows_with_root vs vs' c d a b : (forall n, n <> T "root" -> a_bool a n = a_bool b n /\ a_int a n = a_int b n) -> selected b (T "root") ->
  (forall so, ~ In (T "root", so) vs) -> (forall n so, In (n, so) vs' <-> In (n, so) vs \/ n = T "root" /\ so = SBool) ->
  shows vs c a -> shows vs' d b -> with_root c d.
Proof.
  intros Ag Sb No Vs (A & A') (B & B'). split; [|split].
  - destruct (option_value c (T "root")) as [s|] eqn:E; [|reflexivity]. destruct (A' _ _ E) as (so & I). destruct (No so I).
  - destruct (B (T "root") SBool) as (s & E & Sh); [apply Vs; auto|]. rewrite E. cbn [shown] in Sh. rewrite Sb in Sh. congruence.
  - intros n N. destruct (option_value c n) as [s|] eqn:E.
    + destruct (A' n s E) as (so & I). destruct (A n so I) as (s1 & O1 & S1). destruct (B n so) as (s2 & O2 & S2); [apply Vs; auto|]. rewrite O2. f_equal. rewrite E in O1. injection O1 as <-.
      destruct (Ag n N) as (Eb & Ei). unfold shown in S1, S2. rewrite Eb, Ei in S1. exact (shown_fun b n so _ _ S2 S1).
    + destruct (option_value d n) as [s|] eqn:E'; [|reflexivity]. destruct (B' n s E') as (so & I). apply Vs in I. destruct I as [I|(X & _)]; [|contradiction]. destruct (A n so I) as (s1 & O1 & _). congruence.
Qed.

Section Below.
Variables (h : heap) (m : fmodel) (t : tree) (h' : heap) (m' : fmodel) (t' : tree).
Hypothesis R : represents h m t.
Hypothesis R' : represents h' m' t'.
Hypothesis Mb : model_below h m h' m'.
Hypothesis Firm : root_firm h m.
Hypothesis Li : listed h m.
Hypothesis Nv : narrow_values h m.
Hypothesis Free : forall s i, get_feature m s = Some i -> s <> T "root" /\ s <> T "base".

Lemma below_registered vs vs' : features_registered h m vs -> features_registered h' m' vs' ->
  (forall so, ~ In (T "root", so) vs) /\ forall n so, In (n, so) vs' <-> In (n, so) vs \/ n = T "root" /\ so = SBool.
Proof.
  intros (_ & A) (_ & B). split.
  - intros so I. apply A in I. destruct I as (i & f & Sf & E & _). apply (stored_is h m t R) in Sf. destruct Sf as (G & _). rewrite <- E in G. destruct (Free _ _ G) as (X & _). exact (X eq_refl).
  - intros n so. split.
    + intros I. apply B in I. destruct I as (i' & g & Sg & -> & ->). apply (stored_is h' m' t' R') in Sg. destruct Sg as (G' & F').
      destruct (bl_root _ _ _ _ Mb) as (r & rf & _ & Gr & Fr & Kr & _).
      destruct (list_eq_dec ascii_dec (f_name g) (T "root")) as [E|N].
      * right. rewrite E in G'. rewrite Gr in G'. injection G' as <-. rewrite Fr in F'. injection F' as <-. rewrite Kr. auto.
      * left. destruct (from h m t h' m' R Mb (f_name g) i' G') as [X|(i & G)]; [contradiction|]. destruct (get_stored h m t R _ _ G) as (f & Sf & E). pose proof Sf as (_ & F).
        apply A. exists i, f. split; [exact Sf|]. split; [symmetry; exact E|]. destruct (forth h m t h' m' R Mb Firm Li Nv _ _ _ G F) as (i1 & f1 & G1 & F1 & Al). rewrite G' in G1. injection G1 as <-. rewrite F' in F1. injection F1 as <-.
        rewrite (below_numeric _ _ Al). reflexivity.
    + intros [I|(-> & ->)].
      * apply A in I. destruct I as (i & f & Sf & -> & ->). pose proof Sf as (_ & F). pose proof (stored_get h m t R i f Sf) as G.
        destruct (forth h m t h' m' R Mb Firm Li Nv _ _ _ G F) as (i1 & f1 & G1 & F1 & Al). pose proof (get_name h' m' t' R' _ _ _ G1 F1) as E. apply B. exists i1, f1. split; [apply (stored_is h' m' t' R'); rewrite E; auto|]. split; [symmetry; exact E|].
        rewrite (below_numeric _ _ Al). reflexivity.
      * destruct (bl_root _ _ _ _ Mb) as (r & rf & _ & Gr & Fr & Kr & _). pose proof (get_name h' m' t' R' _ _ _ Gr Fr) as E. apply B. exists r, rf. split; [apply (stored_is h' m' t' R'); rewrite E; auto|]. split; [symmetry; exact E|]. rewrite Kr. reflexivity.
Qed.

Lemma below_enumerated ord ord' check check' : is_order ord -> is_order ord' -> all_resolved m -> supported h m -> supported h' m' -> no_xor m -> no_xor m' ->
  (forall a, SolverSpec.valid h' m' a <-> selected a (T "root") /\ SolverSpec.valid h m a) ->
  exists N, forall fuel, N <= fuel -> exists s s', SolverModel.load ord fuel h m = Some s /\ SolverModel.load ord' fuel h' m' = Some s' /\
    (decides check (s_vars s) (s_asserted s) -> decides check' (s_vars s') (s_asserted s') ->
     exists M, forall fuel', M <= fuel' -> answer_with_root (get_all check fuel' s) (get_all check' fuel' s')).
Proof.
  intros O O' Re Sp Sp' X X' V. destruct (enumerate_model ord check h m t O R Sp X) as (N1 & E1). destruct (enumerate_model ord' check' h' m' t' O' R' Sp' X') as (N2 & E2).
  destruct (load_registers ord h m t O R Sp) as (N3 & E3). destruct (load_registers ord' h' m' t' O' R' Sp') as (N4 & E4).
  exists (N1 + N2 + N3 + N4). intros fuel L. destruct (E1 fuel) as (s & Ls & As); [lia|]. destruct (E2 fuel) as (s' & Ls' & As'); [lia|]. destruct (E3 fuel) as (s1 & L1 & Rg); [lia|]. destruct (E4 fuel) as (s2 & L2 & Rg'); [lia|].
  rewrite Ls in L1. injection L1 as <-. rewrite Ls' in L2. injection L2 as <-. exists s, s'. split; [exact Ls|]. split; [exact Ls'|]. intros D D'.
  destruct (below_registered _ _ Rg Rg') as (No & Vs).
  assert (Ext : forall a, SolverSpec.valid h m a -> SolverSpec.valid h' m' (with_bool a (T "root") true)).
  { intros a Va. apply V. split; [apply with_bool_same|]. apply (valid_agree h m t a); [exact R|exact Re| |reflexivity|exact Va]. apply agree_with_bool. intros I. apply in_map_iff in I. destruct I as ((n & i) & En & I). cbn [fst] in En. subst n.
    apply (rep_find R) in I. destruct (Free _ _ I) as (Z & _). exact (Z eq_refl). }
  destruct (As D) as (M1 & H1). destruct (As' D') as (M2 & H2). exists (M1 + M2). intros fuel' L'.
  destruct (H1 fuel') as [(U1 & Z1)|(l & G1 & Nl & A1 & B1 & C1)]; [lia| |]; (destruct (H2 fuel') as [(U2 & Z2)|(l' & G2 & Nl' & A2 & B2 & C2)]; [lia| |]).
  - left. auto.
  - exfalso. destruct l' as [|c l']; [congruence|]. destruct (A2 c (or_introl eq_refl)) as (a & Va & _). apply V in Va. exact (Z1 a (proj2 Va)).
  - exfalso. destruct l as [|c l]; [congruence|]. destruct (A1 c (or_introl eq_refl)) as (a & Va & _). exact (Z2 _ (Ext a Va)).
  - right. exists l, l'. split; [exact G1|]. split; [exact G2|]. split; [exact Nl|].
    assert (S1 : forall c, In c l -> exists d, In d l' /\ with_root c d).
    { intros c I. destruct (A1 c I) as (a & Va & Sa). destruct (B2 _ (Ext a Va)) as (d & J & Sd). exists d. split; [exact J|].
      apply (shows_with_root (s_vars s) (s_vars s') c d a (with_bool a (T "root") true)); [|apply with_bool_same|exact No|exact Vs|exact Sa|exact Sd]. intros n N. split; [symmetry; apply with_bool_other; exact N|reflexivity]. }
    assert (S2 : forall d, In d l' -> exists c, In c l /\ with_root c d).
    { intros d I. destruct (A2 d I) as (a & Va & Sa). apply V in Va. destruct Va as (Sr & Va). destruct (B1 a Va) as (c & J & Sc). exists c. split; [exact J|].
      apply (shows_with_root (s_vars s) (s_vars s') c d a a); auto. }
    split; [exact S1|]. split; [exact S2|]. apply Nat.le_antisymm.
    + apply (shorter_by with_root); [exact C1|exact with_root_left|exact S1].
    + apply (shorter_by (fun d c => with_root c d)); [exact C2|intros d d' c; apply with_root_right|exact S2].
Qed.
End Below.

Lemma below_read_valid ord ord' sci step cwd h m t h0 : is_order ord -> is_order ord' -> sci_nonneg sci -> represents h m t -> enrolled h m -> all_resolved m -> writable_below h m -> root_firm h m -> heap_ok h0 ->
  supported h m -> neat h m -> listed h m -> narrow_values h m -> proper_groups h m -> exclusive_grouped h m ->
  exists doc h' m', write_xml ord h m = Some doc /\ read_xml ord' sci step cwd h0 doc = SxDone (h', Some m') /\
    forall a, SolverSpec.valid h' m' a <-> selected a (T "root") /\ SolverSpec.valid h m a.
Proof.
  intros O O' So R En Re W Fi K Su Ne Li Nv Pg Eg. destruct (written_and_read_below ord ord' sci step cwd h m t h0 O O' So R En Re W K) as (doc & h' & m' & E1 & _ & E2 & Mb & _ & Re'). exists doc, h', m'. split; [exact E1|]. split; [exact E2|].
  apply below_valid with (t := t); assumption.
Qed.
Lemma below_read_enumerated ord ord' ord1 ord2 check check' sci step cwd h m t h0 : is_order ord -> is_order ord' -> is_order ord1 -> is_order ord2 -> sci_nonneg sci -> represents h m t -> enrolled h m -> all_resolved m -> writable_below h m -> root_firm h m -> heap_ok h0 ->
  supported h m -> no_xor m -> neat h m -> listed h m -> narrow_values h m -> proper_groups h m -> exclusive_grouped h m ->
  exists doc h' m', write_xml ord h m = Some doc /\ read_xml ord' sci step cwd h0 doc = SxDone (h', Some m') /\
    exists N, forall fuel, N <= fuel -> exists s s', SolverModel.load ord1 fuel h m = Some s /\ SolverModel.load ord2 fuel h' m' = Some s' /\
      (decides check (s_vars s) (s_asserted s) -> decides check' (s_vars s') (s_asserted s') ->
       exists M, forall fuel', M <= fuel' -> answer_with_root (get_all check fuel' s) (get_all check' fuel' s')).
Proof.
  intros O O' O1 O2 So R En Re W Fi K Su X Ne Li Nv Pg Eg. destruct (written_and_read_below ord ord' sci step cwd h m t h0 O O' So R En Re W K) as (doc & h' & m' & E1 & _ & E2 & Mb & _ & Re'). exists doc, h', m'. split; [exact E1|]. split; [exact E2|].
  destruct (bl_represented _ _ _ _ Mb) as (t' & R'). apply (below_enumerated h m t h' m' t' R R' Mb Fi Li Nv (wb_names _ _ W) ord1 ord2 check check' O1 O2 Re Su).
  - apply below_supported with (h := h) (m := m) (t := t); assumption.
  - exact X.
  - apply below_no_xor with (h := h) (m := m) (t := t) (h' := h'); assumption.
  - intros a. apply below_valid with (t := t); assumption.
Qed.
