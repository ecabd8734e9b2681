(** Clones and models read back have the same valid configurations and are enumerated
    alike. *)
From Coq Require Import List ZArith Arith Bool Ascii String Permutation Lia.
From Verif Require Import Text TextProofs ConstraintModel ConstraintSpec ConstraintRoundTrip FeatureTreeModel FeatureTreeSpec FeatureTreeProofs FeatureTransactionModel FeatureTransactionSpec FeatureEditSpec FeatureEditProofs
  FeatureHistoryProofs FeatureBuildSpec FeatureCloneSpec FeatureCloneProofs SxfmModel XmlModel XmlWriterModel XmlSpec XmlTripSpec XmlTripFinal ConfigurationModel SolverModel SolverSpec SolverProofs SolverLoadProofs SolverEncodingProofs
  SolverEnumerationProofs SolverFinal ValidSpec ValidProofs ValidCloneProofs ValidTripProofs.
Import ListNotations.

Lemma shows_alike vs vs' c a : (forall n t, In (n, t) vs <-> In (n, t) vs') -> shows vs c a -> shows vs' c a.
Proof.
  intros E (A & B). split.
  - intros n t I. apply A. apply E. exact I.
  - intros n s O. destruct (B n s O) as (t & I). exists t. apply E. exact I.
Qed.
Lemma registered_alike h m t vs h' m' t' vs' : represents h m t -> represents h' m' t' -> frame h m h' m' -> features_registered h m vs -> features_registered h' m' vs' ->
  forall n so, In (n, so) vs -> In (n, so) vs'.
Proof.
  intros R R' Fr (_ & A) (_ & B) n so I. apply A in I. destruct I as (i & f & Sf & -> & ->). apply (stored_is h m t R) in Sf. destruct Sf as (G & F).
  destruct (fr_features _ _ _ _ Fr _ _ _ G F) as (i' & f' & G' & F' & Al & _). apply B. exists i', f'. pose proof (get_name h' m' t' R' _ _ _ G' F') as E.
  split; [apply (stored_is h' m' t' R'); rewrite E; auto|]. split; [symmetry; exact E|]. rewrite (alike_numeric _ _ Al). reflexivity.
Qed.
(** Two lists without repetitions that show each other's entries are equally long. *)
Lemma shorter (l k : list config) : (forall i j c d, nth_error l i = Some c -> nth_error l j = Some d -> i <> j -> exists n, option_value c n <> option_value d n) ->
  (forall c, In c l -> exists d, In d k /\ same_options c d) -> List.length l <= List.length k.
Proof.
  revert k. induction l as [|c l IH]; intros k D H; cbn [List.length]; [lia|]. destruct (H c (or_introl eq_refl)) as (d & I & E). apply in_split in I. destruct I as (k1 & k2 & ->).
  rewrite app_length. cbn [List.length]. rewrite Nat.add_succ_r. apply le_n_S. rewrite <- app_length. apply IH.
  - intros i j x y Ei Ej N. apply (D (S i) (S j) x y Ei Ej). lia.
  - intros x I. destruct (H x (or_intror I)) as (y & J & Ey). apply in_app_or in J. destruct J as [J|[<-|J]]; [exists y; split; [apply in_or_app; auto|exact Ey]| |exists y; split; [apply in_or_app; auto|exact Ey]].
    exfalso. destruct (In_nth_error _ _ I) as (j & Ej). destruct (D 0 (S j) c x eq_refl Ej) as (n & X); [lia|]. apply X. rewrite (E n), (Ey n). reflexivity.
Qed.
Lemma enumerated_alike ord ord' check check' h m t h' m' t' :
  is_order ord -> is_order ord' -> represents h m t -> represents h' m' t' -> supported h m -> supported h' m' -> no_xor m -> no_xor m' -> frame h m h' m' -> frame h' m' h m ->
  (forall a, SolverSpec.valid h' m' a <-> SolverSpec.valid h m a) ->
  exists N, forall fuel, N <= fuel -> exists s s', SolverModel.load ord fuel h m = Some s /\ SolverModel.load ord' fuel h' m' = Some s' /\
    (decides check (s_vars s) (s_asserted s) -> decides check' (s_vars s') (s_asserted s') ->
     exists M, forall fuel', M <= fuel' -> same_answer (get_all check fuel' s) (get_all check' fuel' s')).
Proof.
  intros O O' R R' Sp Sp' X X' Fr Fr' V. destruct (enumerate_model ord check h m t O R Sp X) as (N1 & E1). destruct (enumerate_model ord' check' h' m' t' O' R' Sp' X') as (N2 & E2).
  destruct (load_registers ord h m t O R Sp) as (N3 & E3). destruct (load_registers ord' h' m' t' O' R' Sp') as (N4 & E4).
  exists (N1 + N2 + N3 + N4). intros fuel L. destruct (E1 fuel) as (s & Ls & As); [lia|]. destruct (E2 fuel) as (s' & Ls' & As'); [lia|]. destruct (E3 fuel) as (s1 & L1 & Rg); [lia|]. destruct (E4 fuel) as (s2 & L2 & Rg'); [lia|].
  rewrite Ls in L1. injection L1 as <-. rewrite Ls' in L2. injection L2 as <-. exists s, s'. split; [exact Ls|]. split; [exact Ls'|]. intros D D'.
  assert (Vs : forall n so, In (n, so) (s_vars s) <-> In (n, so) (s_vars s')) by (intros n so; split; [eapply registered_alike; [exact R|exact R'| | |]; eassumption|eapply registered_alike; [exact R'|exact R| | |]; eassumption]).
  destruct (As D) as (M1 & H1). destruct (As' D') as (M2 & H2). exists (M1 + M2). intros fuel' L'.
  destruct (H1 fuel') as [(U1 & Z1)|(l & G1 & Nl & A1 & B1 & C1)]; [lia| |]; (destruct (H2 fuel') as [(U2 & Z2)|(l' & G2 & Nl' & A2 & B2 & C2)]; [lia| |]).
  - left. auto.
  - exfalso. destruct l' as [|c l']; [congruence|]. destruct (A2 c (or_introl eq_refl)) as (a & Va & _). apply V in Va. exact (Z1 a Va).
  - exfalso. destruct l as [|c l]; [congruence|]. destruct (A1 c (or_introl eq_refl)) as (a & Va & _). apply V in Va. exact (Z2 a Va).
  - right. exists l, l'. split; [exact G1|]. split; [exact G2|]. split; [exact Nl|].
    assert (S1 : forall c, In c l -> exists d, In d l' /\ same_options c d).
    { intros c I. destruct (A1 c I) as (a & Va & Sa). apply V in Va. destruct (B2 a Va) as (d & J & Sd). exists d. split; [exact J|]. intros n. apply (shows_options (s_vars s') c d a); [apply (shows_alike (s_vars s)); assumption|exact Sd]. }
    assert (S2 : forall d, In d l' -> exists c, In c l /\ same_options c d).
    { intros d I. destruct (A2 d I) as (a & Va & Sa). apply V in Va. destruct (B1 a Va) as (c & J & Sc). exists c. split; [exact J|]. intros n. apply (shows_options (s_vars s') c d a); [apply (shows_alike (s_vars s)); assumption|exact Sa]. }
    split; [split; assumption|]. apply Nat.le_antisymm; apply shorter; try assumption. intros d I. destruct (S2 d I) as (c & J & E). exists c. split; [exact J|]. intros n. symmetry. apply E.
Qed.

(** ** Clones *)
Lemma resolved_connected h m t : represents h m t -> all_resolved m -> all_connected h m.
Proof.
  intros R Re e I r J. apply in_map_iff in I. destruct I as (c & <- & I). destruct (Re c r I J) as (s & i & -> & G). destruct (get_stored h m t R s i G) as (f & Sf & N).
  exists s, i. split; [|exact G]. cbn [cref_name]. rewrite (stored_name h m i f Sf), N. reflexivity.
Qed.
Lemma clones_valid ord map_order h m t : is_order ord -> (forall l, Permutation (map_order l) l) -> represents h m t -> all_resolved m -> root_name_free m -> neat h m -> listed h m ->
  exists h' m', clone_model ord map_order h m = Some (h', m') /\ forall a, SolverSpec.valid h' m' a <-> SolverSpec.valid h m a.
Proof.
  intros O Mo R Re Fr Ne Li. destruct (model_cloned ord O map_order Mo h m t R (resolved_connected h m t R Re) Fr) as (h' & m' & E & Cl & _). exists h', m'. split; [exact E|].
  intros a. exact (clone_valid h m t h' m' R Cl Ne Li Re a).
Qed.
Lemma clones_enumerated ord map_order ord1 ord2 check check' h m t :
  is_order ord -> (forall l, Permutation (map_order l) l) -> is_order ord1 -> is_order ord2 -> represents h m t -> all_resolved m -> root_name_free m -> neat h m -> listed h m -> supported h m -> no_xor m ->
  exists h' m', clone_model ord map_order h m = Some (h', m') /\
    exists N, forall fuel, N <= fuel -> exists s s', SolverModel.load ord1 fuel h m = Some s /\ SolverModel.load ord2 fuel h' m' = Some s' /\
      (decides check (s_vars s) (s_asserted s) -> decides check' (s_vars s') (s_asserted s') ->
       exists M, forall fuel', M <= fuel' -> same_answer (get_all check fuel' s) (get_all check' fuel' s')).
Proof.
  intros O Mo O1 O2 R Re Fr Ne Li Su X. destruct (model_cloned ord O map_order Mo h m t R (resolved_connected h m t R Re) Fr) as (h' & m' & E & Cl & _). exists h', m'. split; [exact E|].
  destruct (cl_represented _ _ _ _ Cl) as (t' & R'). apply (enumerated_alike ord1 ord2 check check' h m t h' m' t' O1 O2 R R' Su).
  - exact (clone_supported h m t h' m' R Cl Ne Li Re Su).
  - exact X.
  - exact (clone_no_xor h m t h' m' R Cl Re X).
  - exact (clone_frame h m t h' m' R Cl Ne Li).
  - exact (clone_frame_back h m t h' m' R Cl Ne Li).
  - exact (clone_valid h m t h' m' R Cl Ne Li Re).
Qed.

(** ** Models read back *)
Lemma trips_valid ord ord' sci step cwd h m t h0 : is_order ord -> is_order ord' -> sci_nonneg sci -> represents h m t -> enrolled h m -> all_resolved m -> writable h m -> heap_ok h0 ->
  supported h m -> neat h m -> listed h m -> narrow_values h m -> proper_groups h m -> exclusive_grouped h m ->
  exists doc h' m', write_xml ord h m = Some doc /\ read_xml ord' sci step cwd h0 doc = SxDone (h', Some m') /\ forall a, SolverSpec.valid h' m' a <-> SolverSpec.valid h m a.
Proof.
  intros O O' So R En Re W K Su Ne Li Nv Pg Eg. destruct (written_and_read ord ord' sci step cwd h m t h0 O O' So R En Re W K) as (doc & h' & m' & E1 & _ & E2 & Mb & _ & Re'). exists doc, h', m'. split; [exact E1|]. split; [exact E2|].
  exact (trip_valid h m t h' m' R Mb Re Re' Su Ne Li Nv Pg Eg).
Qed.
Lemma trips_enumerated ord ord' ord1 ord2 check check' sci step cwd h m t h0 : is_order ord -> is_order ord' -> is_order ord1 -> is_order ord2 -> sci_nonneg sci -> represents h m t -> enrolled h m -> all_resolved m -> writable h m -> heap_ok h0 ->
  supported h m -> no_xor m -> neat h m -> listed h m -> narrow_values h m -> proper_groups h m -> exclusive_grouped h m ->
  exists doc h' m', write_xml ord h m = Some doc /\ read_xml ord' sci step cwd h0 doc = SxDone (h', Some m') /\
    exists N, forall fuel, N <= fuel -> exists s s', SolverModel.load ord1 fuel h m = Some s /\ SolverModel.load ord2 fuel h' m' = Some s' /\
      (decides check (s_vars s) (s_asserted s) -> decides check' (s_vars s') (s_asserted s') ->
       exists M, forall fuel', M <= fuel' -> same_answer (get_all check fuel' s) (get_all check' fuel' s')).
Proof.
  intros O O' O1 O2 So R En Re W K Su X Ne Li Nv Pg Eg. destruct (written_and_read ord ord' sci step cwd h m t h0 O O' So R En Re W K) as (doc & h' & m' & E1 & _ & E2 & Mb & _ & Re'). exists doc, h', m'. split; [exact E1|]. split; [exact E2|].
  destruct (mb_represented _ _ _ _ Mb) as (t' & R'). apply (enumerated_alike ord1 ord2 check check' h m t h' m' t' O1 O2 R R' Su).
  - exact (trip_supported h m t h' m' R Mb Re Re' Su Ne Li Nv Pg Eg).
  - exact X.
  - exact (trip_no_xor h m t h' m' R Mb Re Re' Su Ne Li Nv Pg Eg X).
  - exact (trip_frame h m t h' m' R Mb Ne Li Nv Pg Eg).
  - exact (trip_frame_back h m t h' m' R Mb Ne Li Nv Pg Eg).
  - exact (trip_valid h m t h' m' R Mb Re Re' Su Ne Li Nv Pg Eg).
Qed.
