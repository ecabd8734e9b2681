(** The lemmas behind the property theorems on the solver. *)
From Coq Require Import List ZArith Arith Bool Ascii String Permutation Lia.
From Coq Require Import ZifyBool.
From Verif Require Import Text TextProofs ConstraintModel ConstraintSpec SourceRangeModel StepFunctionModel ConfigurationModel FeatureTreeModel FeatureTreeSpec FeatureTransactionModel
  FeatureEditSpec FeatureEditProofs FeatureBuildSpec FeatureCloneProofs SolverModel SolverSpec SolverProofs SolverLoadProofs SolverEncodingProofs SolverEnumerationProofs.
Import ListNotations.
Local Open Scope list_scope.

Lemma encoding_exact ord h m t : is_order ord -> represents h m t -> supported h m -> no_xor m ->
  exists N, forall fuel, N <= fuel -> exists s, load ord fuel h m = Some s /\ forall a, satisfies a (s_asserted s) <-> valid h m a.
Proof.
  intros Or R Su X. destruct (load_spec h m t R Su ord Or) as (N & H). exists N. intros fuel L. destruct (H fuel L) as (s & E & _ & _ & _ & V). exists s. auto.
Qed.

Lemma constraint_encoded h e s : well_typed h false e -> exists t, add_constraint h e s = done (assert_term s t) /\
  (xor_free e -> forall a, beval a t = true <-> value_of h false a e = Some (Truth true)).
Proof.
  intros W. destruct (add_constraint_spec h e s W) as (t & E & H). exists t. split; [exact E|]. intros X a. unfold value_of.
  rewrite (meaning_xor_free xorb not_both) by exact X. rewrite <- H. split; congruence.
Qed.

Lemma xor_encoded h l r s : well_typed h false (CBin BXor l r) -> exists t, add_constraint h (CBin BXor l r) s = done (assert_term s t) /\
  forall a x y, meaning not_both (leaf_value h false a) (a_div0 a) l = Some (Truth x) -> meaning not_both (leaf_value h false a) (a_div0 a) r = Some (Truth y) ->
    (beval a t = true <-> ~ (x = true /\ y = true)).
Proof.
  intros W. destruct (add_constraint_spec h _ s W) as (t & E & H). exists t. split; [exact E|]. intros a x y Ex Ey.
  transitivity (Truth (beval a t) = Truth true); [split; congruence|]. rewrite H. cbn [meaning]. rewrite Ex, Ey. cbn. unfold not_both.
  destruct x, y; cbn; intuition congruence.
Qed.
Lemma xor_operands h l r s : well_typed h false (CBin BXor l r) -> xor_free l -> xor_free r -> exists t, add_constraint h (CBin BXor l r) s = done (assert_term s t) /\
  forall a x y, value_of h false a l = Some (Truth x) -> value_of h false a r = Some (Truth y) -> (beval a t = true <-> ~ (x = true /\ y = true)).
Proof.
  intros W Xl Xr. destruct (xor_encoded h l r s W) as (t & E & H). exists t. split; [exact E|]. intros a x y Ex Ey. apply H.
  - rewrite (meaning_xor_free not_both xorb) by exact Xl. exact Ex.
  - rewrite (meaning_xor_free not_both xorb) by exact Xr. exact Ey.
Qed.
Lemma xor_refuted : exists h e t a, add_constraint h e new_solver = done (assert_term new_solver t) /\ beval a t = true /\
  value_of h false a e = Some (Truth false).
Proof.
  exists (Heap (fun _ => None) 0), (CBin BXor (CFeat (Own (T "a"))) (CFeat (Own (T "b")))). eexists. exists (Assignment (fun _ => false) (fun _ => 0%Z) (fun _ => 0%Z)).
  split; [reflexivity|]. split; reflexivity.
Qed.

Lemma mixed_encoded h e k r s : well_typed h true e -> xor_free e ->
  exists t, add_mixed h e k r s = done (assert_term s t) /\ forall a, beval a t = true <-> mixed_holds h a e k r.
Proof. intros W X. destruct (add_mixed_spec h e k r s W) as (t & E & H). exists t. auto. Qed.

(** Enumeration. *)
Lemma solver_eta s : s_model s = None -> s = Solver (s_vars s) (s_asserted s) None.
Proof. destruct s. cbn. intros ->. reflexivity. Qed.

Lemma enumerate_all check s : reached s -> decides check (s_vars s) (s_asserted s) ->
  exists N, forall fuel, N <= fuel ->
    (get_all check fuel s = Some (inr Unsat) /\ forall a, ~ satisfies a (s_asserted s)) \/
    exists l, get_all check fuel s = Some (inl l) /\ l <> [] /\ lists_all_solutions (s_vars s) (s_asserted s) l.
Proof.
  intros Re C. destruct (reached_built s Re) as [M D B]. destruct (get_all_run check (s_vars s) (s_asserted s) B C) as (N & H).
  exists N. intros fuel L. rewrite (solver_eta s M). cbn [s_vars s_asserted]. destruct (H fuel L) as [(E & X)|(a & l & E & F & X)].
  - left. split; [exact E|]. intros a Sa. destruct (X a Sa) as (b & [] & _).
  - right. exists (map (configuration (s_vars s)) (a :: l)). split; [exact E|]. split; [discriminate|]. apply complete_lists; assumption.
Qed.

Lemma enumerate_n check s n : reached s -> decides check (s_vars s) (s_asserted s) ->
  exists N, forall fuel, N <= fuel -> exists l, get_n check fuel n s = Some l /\ lists_solutions (s_vars s) (s_asserted s) l /\
    forall all, lists_all_solutions (s_vars s) (s_asserted s) all -> List.length l = Nat.min n (List.length all).
Proof.
  intros Re C. destruct (reached_built s Re) as [M D B]. destruct (get_n_run check (s_vars s) (s_asserted s) B C n) as (N & H).
  exists N. intros fuel L. rewrite (solver_eta s M). cbn [s_vars s_asserted]. destruct (H fuel L) as (l & E & F & X).
  exists (map (configuration (s_vars s)) (rev l)). split; [exact E|].
  assert (Ls : lists_solutions (s_vars s) (s_asserted s) (map (configuration (s_vars s)) (rev l))) by (apply found_lists; [exact D|apply found_rev; exact F]).
  split; [exact Ls|]. intros all A. pose proof (solutions_length _ _ _ _ Ls A) as Le. destruct X as [X|(X & Cl)].
  - rewrite map_length, rev_length in *. lia.
  - assert (La : lists_all_solutions (s_vars s) (s_asserted s) (map (configuration (s_vars s)) (rev l))) by (apply complete_lists; [exact D|apply found_rev; exact F|apply complete_rev; exact Cl]).
    pose proof (all_solutions_length _ _ _ _ La A) as Eq. rewrite map_length, rev_length in *. lia.
Qed.

Lemma count_all check s : reached s -> decides check (s_vars s) (s_asserted s) ->
  exists N, forall fuel, N <= fuel ->
    (exists all, lists_all_solutions (s_vars s) (s_asserted s) all) /\
    forall all, lists_all_solutions (s_vars s) (s_asserted s) all ->
      get_num check fuel s = Some (if List.length all =? 0 then inr Unsat else inl (List.length all)).
Proof.
  intros Re C. destruct (enumerate_all check s Re C) as (N & H). exists N. intros fuel L. unfold get_num. destruct (H fuel L) as [(E & U)|(l & E & Nl & A)]; rewrite E; cbn [bind].
  - split.
    + exists []. split; [split; [intros c []|intros [] j c d X; discriminate]|]. intros a Sa. destruct (U a Sa).
    + intros [|c all] A; [reflexivity|]. exfalso. destruct A as ((A & _) & _). destruct (A c (or_introl eq_refl)) as (a & Sa & _). exact (U a Sa).
  - split; [eauto|]. intros all B. rewrite (all_solutions_length _ _ _ _ A B). destruct (Nat.eqb_spec (List.length all) 0) as [Z|Z]; [|reflexivity].
    exfalso. apply Nl. rewrite <- (all_solutions_length _ _ _ _ A B) in Z. destruct l; [reflexivity|discriminate].
Qed.

(** Every call made while loading is a call on the solver. *)
Lemma call_all_reached {A} (f : A -> solver -> sresult) : (forall x s r, f x s = Some r -> exists fuel c, solver_call fuel c s = Some r) ->
  forall l s s', reached s -> call_all f l s = Some s' -> reached s'.
Proof.
  intros H. induction l as [|x l IH]; intros s s' Re E; [injection E as <-; exact Re|]. rewrite call_all_cons in E.
  destruct (f x s) as [[s1 e]|] eqn:F; [|discriminate]. cbn [bind] in E. apply (IH s1 s'); [|exact E].
  destruct (H x s _ F) as (fuel & c & C). exact (reached_call s fuel c s1 e Re C).
Qed.
Lemma load_reached ord fuel h m s : load ord fuel h m = Some s -> reached s.
Proof.
  unfold load, apply_model. destruct (group_members h m) as [v|]; cbn [bind]; [|discriminate]. destruct (iterate ord (S (h_next h)) h (m_root m)) as [fs|]; cbn [bind]; [|discriminate].
  intros E. set (f1 := fun (i : nid) (s : solver) => let* n := name_at h i in add_feature fuel h i (existsb (text_eqb n) v) s) in E.
  destruct (call_all f1 fs new_solver) as [s1|] eqn:E1; cbn [bind] in E; [|discriminate].
  destruct (call_all (fun c => add_constraint h (c_expr c)) (m_boolean m) s1) as [s2|] eqn:E2; cbn [bind] in E; [|discriminate].
  destruct (call_all (fun c => add_constraint h (c_expr c)) (m_nonboolean m) s2) as [s3|] eqn:E3; cbn [bind] in E; [|discriminate].
  destruct (call_all (fun x => add_mixed h (c_expr (x_con x)) (x_kind x) (x_req x)) (m_mixed m) s3) as [s4|] eqn:E4; cbn [bind] in E; [|discriminate].
  eapply call_all_reached; [|eapply call_all_reached; [|eapply call_all_reached; [|eapply call_all_reached; [|eapply call_all_reached; [|exact reached_new|exact E1]|exact E2]|exact E3]|exact E4]|exact E].
  - intros q s0 r F. exists 0, (CallRelationship h q). exact F.
  - intros x s0 r F. exists 0, (CallMixed h (c_expr (x_con x)) (x_kind x) (x_req x)). exact F.
  - intros c s0 r F. exists 0, (CallConstraint h (c_expr c)). exact F.
  - intros c s0 r F. exists 0, (CallConstraint h (c_expr c)). exact F.
  - intros i s0 r F. unfold f1 in F. destruct (name_at h i) as [n|]; cbn [bind] in F; [|discriminate]. exists fuel, (CallFeature h i (existsb (text_eqb n) v)). exact F.
Qed.

Lemma load_registers ord h m t : is_order ord -> represents h m t -> supported h m ->
  exists N, forall fuel, N <= fuel -> exists s, load ord fuel h m = Some s /\ features_registered h m (s_vars s).
Proof.
  intros Or R Su. destruct (load_spec h m t R Su ord Or) as (N & H). exists N. intros fuel L. destruct (H fuel L) as (s & E & _ & D & V & _). exists s. split; [exact E|split; assumption].
Qed.

Lemma enumerate_model ord check h m t : is_order ord -> represents h m t -> supported h m -> no_xor m ->
  exists N, forall fuel, N <= fuel -> exists s, load ord fuel h m = Some s /\
    (decides check (s_vars s) (s_asserted s) -> exists M, forall fuel', M <= fuel' ->
    (get_all check fuel' s = Some (inr Unsat) /\ forall a, ~ valid h m a) \/
    exists l, get_all check fuel' s = Some (inl l) /\ l <> [] /\
      (forall c, In c l -> exists a, valid h m a /\ shows (s_vars s) c a) /\
      (forall a, valid h m a -> exists c, In c l /\ shows (s_vars s) c a) /\
      (forall i j c d, nth_error l i = Some c -> nth_error l j = Some d -> i <> j -> exists n, option_value c n <> option_value d n)).
Proof.
  intros Or R Su X. destruct (encoding_exact ord h m t Or R Su X) as (N & H). exists N. intros fuel L. destruct (H fuel L) as (s & E & V). exists s. split; [exact E|]. intros Dec.
  destruct (enumerate_all check s (load_reached _ _ _ _ _ E) Dec) as (M & K). exists M. intros fuel' L'. destruct (K fuel' L') as [(G & U)|(l & G & Nl & (A & B) & C)].
  - left. split; [exact G|]. intros a Va. apply (U a). apply V. exact Va.
  - right. exists l. split; [exact G|]. split; [exact Nl|]. split; [|split; [|exact B]].
    + intros c I. destruct (A c I) as (a & Sa & Sh). exists a. split; [apply V; exact Sa|exact Sh].
    + intros a Va. apply C. apply V. exact Va.
Qed.

(** Validity. *)
Lemma has_valid_first check s : reached s -> decides check (s_vars s) (s_asserted s) ->
  exists b, has_valid check s = inl b /\ (b = true <-> exists a, satisfies a (s_asserted s)).
Proof.
  intros Re C. destruct (reached_built s Re) as [M _ _]. unfold has_valid. rewrite M. specialize (C []). rewrite app_nil_r in C.
  specialize (C (fun u I => match I with end)). destruct (check (s_asserted s)) as [a|]; eexists; (split; [reflexivity|]).
  - split; [eauto|reflexivity].
  - split; [discriminate|]. intros (a & Sa). destruct (C a Sa).
Qed.
Lemma has_valid_later check s s1 c : get_next check s = (s1, inl c) \/ get_current check s = (s1, inl c) -> has_valid check s1 = inr IllegalState /\ is_valid check s1 = false.
Proof.
  assert (G : get_next check s = (s1, inl c) -> exists a, s_model s1 = Some a).
  { unfold get_next. destruct (check (s_asserted s)) as [a|]; [|discriminate]. intros E. injection E as <- _. exists a. reflexivity. }
  intros H. assert (exists a, s_model s1 = Some a) as (a & M).
  { destruct H as [E|E]; [exact (G E)|]. unfold get_current in E. destruct (s_model s) as [a|] eqn:M; [|exact (G E)]. injection E as <- _. exists a. exact M. }
  unfold is_valid, has_valid. rewrite M. split; reflexivity.
Qed.
Lemma is_valid_true check s : reached s -> is_valid check s = true.
Proof. intros Re. destruct (reached_built s Re) as [M _ _]. unfold is_valid, has_valid. rewrite M. reflexivity. Qed.

(** Refused calls. *)
Lemma refused_unchanged fuel c s s' e : solver_call fuel c s = Some (s', Some e) -> s' = s.
Proof.
  destruct c as [n|n zs|h i g|h r|h x|h x k r]; cbn [solver_call].
  - unfold add_name. destruct (known s n); intros E; [injection E as <- _; reflexivity|discriminate].
  - unfold add_values. destruct (known s n); intros E; [injection E as <- _; reflexivity|discriminate].
  - unfold add_feature. destruct (feature_at h i) as [f|]; cbn [bind]; [|discriminate]. destruct (parent_feature h i) as [q|]; cbn [bind]; [|discriminate].
    destruct (match q with None => Some true | Some p => let* n := name_at h p in Some (known s n) end) as [[]|]; cbn [bind negb]; [|intros E; injection E as <- _; reflexivity|discriminate].
    assert (V : forall n zs, add_values n zs s = Some (s', Some e) -> s' = s).
    { intros n zs. unfold add_values. destruct (known s n); intros E; [injection E as <- _; reflexivity|discriminate]. }
    destruct (known s (f_name f)); [intros E; injection E as <- _; reflexivity|]. destruct (f_kind f) as [|[lo hi|zs] step| |].
    + destruct q as [p|]; cbn [bind]; [|discriminate]. destruct (name_at h p) as [n|]; cbn [bind]; [|discriminate].
      destruct (bool_var (add_option s (f_name f) SBool) n) as [v|]; cbn [bind]; discriminate.
    + destruct (expand fuel step lo hi); try discriminate. apply V.
    + apply V.
    + discriminate.
    + intros E. injection E as <- _. reflexivity.
  - unfold add_relationship. destruct (h_cells h r) as [c|]; cbn [bind]; [|discriminate]. destruct (n_parent c) as [p|]; cbn [bind]; [|discriminate].
    destruct (name_at h p) as [n|]; cbn [bind]; [|discriminate]. destruct (map_option (name_at h) (n_edges c)) as [ns|]; cbn [bind]; [|discriminate].
    destruct (n_data c) as [f|[]]; [discriminate| |discriminate]. destruct ns; discriminate.
  - unfold add_constraint, add_encoded. destruct (encode h false x (TConst false)) as [[[b|z] vc]|]; discriminate.
  - unfold add_mixed, add_encoded. destruct (encode h true x (TConst false)) as [[[b|z] vc]|]; discriminate.
Qed.
Lemma known_in s n : known s n = true <-> In n (map fst (s_vars s)).
Proof.
  unfold known. destruct (sort_of (s_vars s) n) as [t|] eqn:E.
  - split; [intros _|reflexivity]. apply sort_of_in in E. apply in_map_iff. exists (n, t). auto.
  - split; [discriminate|]. apply sort_of_none in E. contradiction.
Qed.
Lemma unknown_in s n : known s n = false <-> ~ In n (map fst (s_vars s)).
Proof. rewrite <- known_in. destruct (known s n); intuition congruence. Qed.
Lemma refused_feature h m t i f fuel g s : represents h m t -> stored h m i f ->
  (forall p fp r, hangs h i p r -> feature_at h p = Some fp -> ~ In (f_name fp) (map fst (s_vars s)) ->
     add_feature fuel h i g s = Some (s, Some ParentNotPresent)) /\
  ((forall p fp r, hangs h i p r -> feature_at h p = Some fp -> In (f_name fp) (map fst (s_vars s))) -> In (f_name f) (map fst (s_vars s)) ->
     add_feature fuel h i g s = Some (s, Some AlreadyPresent)).
Proof.
  intros R St. pose proof St as (_ & F). unfold add_feature. rewrite F. cbn [bind]. split.
  - intros p fp r Hg Fp N. assert (K : f_kind f <> FRoot) by (intros K; exact (hangs_root h m t R i f p r St K Hg)).
    destruct (hangs_below h m t R i f St K) as (p0 & g0 & r0 & _ & Sg & Pp & U). destruct (U _ _ _ Hg Fp) as (-> & -> & ->).
    rewrite Pp. cbn [bind]. rewrite (stored_name h m _ _ Sg). cbn [bind]. rewrite (proj2 (unknown_in s (f_name g0)) N). reflexivity.
  - intros H I. assert (P : exists q, parent_feature h i = Some q /\ match q with None => True | Some p => exists fp r, hangs h i p r /\ stored h m p fp end).
    { destruct (entry_facts h m t R _ _ (stored_entry h m t R i f St)) as (Fa & _ & [(_ & _ & P)|(_ & K & _)]); [exists None; auto|].
      assert (fd h i = f) as E by congruence. rewrite E in K. destruct (hangs_below h m t R i f St K) as (p0 & g0 & r0 & Hg & Sg & Pp & _). exists (Some p0). eauto. }
    destruct P as ([p|] & -> & Q); cbn [bind].
    + destruct Q as (fp & r & Hg & Sp). rewrite (stored_name h m _ _ Sp). cbn [bind]. rewrite (proj2 (known_in s (f_name fp)) (H p fp r Hg (proj2 Sp))). cbn [negb].
      rewrite (proj2 (known_in s (f_name f)) I). reflexivity.
    + cbn [negb]. rewrite (proj2 (known_in s (f_name f)) I). reflexivity.
Qed.
Lemma refused_name n zs s : In n (map fst (s_vars s)) -> add_name n s = Some (s, Some AlreadyPresent) /\ add_values n zs s = Some (s, Some AlreadyPresent).
Proof. intros I. unfold add_name, add_values. rewrite (proj2 (known_in s n) I). auto. Qed.
