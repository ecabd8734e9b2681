(** Adding to a solver while it enumerates: proofs. *)
From Coq Require Import List ZArith Arith Bool Ascii Lia.
From Verif Require Import Text StepFunctionModel ConfigurationModel FeatureTreeModel FeatureTransactionModel SolverModel SolverSpec SolverProofs SolverLoadProofs SolverEnumerationProofs SessionModel SessionSpec.
Import ListNotations.
Local Open Scope list_scope.

(** ** Calls look at the options only *)
Lemma solver_eta s : Solver (s_vars s) (s_asserted s) (s_model s) = s.
Proof. destruct s; reflexivity. Qed.
Definition on_top (s : solver) (r : sresult) : sresult :=
  match r with None => None | Some (s1, e) => Some (Solver (s_vars s1) (s_asserted s ++ s_asserted s1) (s_model s), e) end.
Definition bare (s : solver) : solver := Solver (s_vars s) [] None.
Lemma values_local n zs s : add_values n zs s = on_top s (add_values n zs (bare s)).
Proof.
  unfold add_values, known. cbn [bare s_vars]. destruct (sort_of (s_vars s) n); unfold refused, done, on_top; cbn [s_vars s_asserted s_model bare assert_term add_option].
  - rewrite app_nil_r, solver_eta. reflexivity.
  - reflexivity.
Qed.
Lemma call_local fuel c s : solver_call fuel c s = on_top s (solver_call fuel c (bare s)).
Proof.
  assert (Id : forall e, refused e s = on_top s (refused e (bare s))) by (intros e; unfold refused, on_top, bare; cbn [s_vars s_asserted]; rewrite app_nil_r, solver_eta; reflexivity).
  destruct c as [n|n zs|h i g|h r|h x|h x k r]; cbn [solver_call].
  - unfold add_name, known. cbn [bare s_vars]. destruct (sort_of (s_vars s) n); [apply Id|]. unfold done, on_top, add_option. cbn [s_vars s_asserted s_model]. rewrite app_nil_r. reflexivity.
  - apply values_local.
  - unfold add_feature. destruct (feature_at h i) as [f|]; cbn [bind]; [|reflexivity]. destruct (parent_feature h i) as [q|]; cbn [bind]; [|reflexivity].
    change (fun n => known (bare s) n) with (fun n => known s n). change (known (bare s) (f_name f)) with (known s (f_name f)).
    destruct (match q with None => Some true | Some p => let* n := name_at h p in Some (known s n) end) as [[]|] eqn:Q.
    + assert (match q with None => Some true | Some p => let* n := name_at h p in Some (known (bare s) n) end = Some true) as Q' by exact Q. rewrite Q'. cbn [bind negb].
      destruct (known s (f_name f)) eqn:K; [apply Id|]. destruct (f_kind f) as [|[lo hi|zs] step| |].
      * destruct q as [p|]; cbn [bind]; [|reflexivity]. destruct (name_at h p) as [n|]; cbn [bind]; [|reflexivity].
        assert (bool_var (add_option (bare s) (f_name f) SBool) n = bool_var (add_option s (f_name f) SBool) n) as -> by reflexivity.
        destruct (bool_var (add_option s (f_name f) SBool) n) as [v|]; cbn [bind]; [|reflexivity]. unfold done, on_top, assert_term, add_option.
        destruct (negb g && negb (f_optional f)); cbn [s_vars s_asserted s_model]; rewrite <- ?app_assoc; reflexivity.
      * destruct (expand fuel step lo hi); try reflexivity. apply values_local.
      * apply values_local.
      * reflexivity.
      * apply Id.
    + assert (match q with None => Some true | Some p => let* n := name_at h p in Some (known (bare s) n) end = Some false) as Q' by exact Q. rewrite Q'. cbn [bind negb]. apply Id.
    + assert (match q with None => Some true | Some p => let* n := name_at h p in Some (known (bare s) n) end = None) as Q' by exact Q. rewrite Q'. reflexivity.
  - unfold add_relationship. destruct (h_cells h r) as [c|]; cbn [bind]; [|reflexivity]. destruct (n_parent c) as [p|]; cbn [bind]; [|reflexivity].
    destruct (name_at h p) as [n|]; cbn [bind]; [|reflexivity]. destruct (map_option (name_at h) (n_edges c)) as [ns|]; cbn [bind]; [|reflexivity].
    destruct (n_data c) as [f|[]]; [reflexivity| |reflexivity]. destruct ns; reflexivity.
  - unfold add_constraint, add_encoded. destruct (encode h false x (TConst false)) as [[[b|z] vc]|]; reflexivity.
  - unfold add_mixed, add_encoded. destruct (encode h true x (TConst false)) as [[[b|z] vc]|]; reflexivity.
Qed.
(** Options are never lost. *)
Lemma call_grows fuel c s s1 e : solver_call fuel c s = Some (s1, e) -> exists vs, s_vars s1 = s_vars s ++ vs.
Proof.
  assert (Av : forall n zs, add_values n zs s = Some (s1, e) -> exists vs, s_vars s1 = s_vars s ++ vs).
  { intros n zs. unfold add_values. destruct (known s n); intros X; injection X as <- _; [exists []; rewrite app_nil_r; reflexivity|eexists; reflexivity]. }
  assert (Sm : exists vs, s_vars s = s_vars s ++ vs) by (exists []; rewrite app_nil_r; reflexivity).
  destruct c as [n|n zs|h i g|h r|h x|h x k r]; cbn [solver_call].
  - unfold add_name. destruct (known s n); intros X; injection X as <- _; [exact Sm|eexists; reflexivity].
  - apply Av.
  - unfold add_feature. destruct (feature_at h i) as [f|]; cbn [bind]; [|discriminate]. destruct (parent_feature h i) as [q|]; cbn [bind]; [|discriminate].
    destruct (match q with None => Some true | Some p => let* n := name_at h p in Some (known s n) end) as [[]|]; cbn [bind negb]; [|intros E; injection E as <- _; exact Sm|discriminate].
    destruct (known s (f_name f)) eqn:K; [intros E; injection E as <- _; exact Sm|]. destruct (f_kind f) as [|[lo hi|zs] step| |].
    + destruct q as [p|]; cbn [bind]; [|discriminate]. destruct (name_at h p) as [n|]; cbn [bind]; [|discriminate].
      destruct (bool_var (add_option s (f_name f) SBool) n) as [v|]; cbn [bind]; [|discriminate]. intros E. injection E as <- _.
      destruct (negb g && negb (f_optional f)); eexists; reflexivity.
    + destruct (expand fuel step lo hi); try discriminate. apply Av.
    + apply Av.
    + intros E. injection E as <- _. eexists. reflexivity.
    + intros E. injection E as <- _. exact Sm.
  - unfold add_relationship. destruct (h_cells h r) as [c|]; cbn [bind]; [|discriminate]. destruct (n_parent c) as [p|]; cbn [bind]; [|discriminate].
    destruct (name_at h p) as [n|]; cbn [bind]; [|discriminate]. destruct (map_option (name_at h) (n_edges c)) as [ns|]; cbn [bind]; [|discriminate].
    destruct (n_data c) as [f|[]]; [discriminate| |].
    + destruct ns; [discriminate|]. intros E. injection E as <- _. exact Sm.
    + intros E. injection E as <- _. exact Sm.
  - unfold add_constraint, add_encoded. destruct (encode h false x (TConst false)) as [[[b|z] vc]|]; cbn [bind]; try discriminate. intros E. injection E as <- _. exact Sm.
  - unfold add_mixed, add_encoded. destruct (encode h true x (TConst false)) as [[[b|z] vc]|]; cbn [bind]; try discriminate. intros E. injection E as <- _. exact Sm.
Qed.
(** The same call on two solvers with the same options. *)
Lemma call_alike fuel c s s0 : s_vars s = s_vars s0 ->
  match solver_call fuel c s, solver_call fuel c s0 with
  | Some (s1, e), Some (s01, e0) => e = e0 /\ s_vars s1 = s_vars s01 /\ s_model s1 = s_model s /\
      exists ts, s_asserted s1 = s_asserted s ++ ts /\ s_asserted s01 = s_asserted s0 ++ ts
  | None, None => True
  | _, _ => False
  end.
Proof.
  intros V. rewrite (call_local fuel c s), (call_local fuel c s0). assert (bare s = bare s0) as <- by (unfold bare; rewrite V; reflexivity).
  destruct (solver_call fuel c (bare s)) as [[s1 e]|] eqn:E; cbn [on_top]; [|exact Logic.I]. cbn [s_vars s_asserted s_model]. repeat split. eexists. split; reflexivity.
Qed.

Section Oracle.
Variable check : list bterm -> option assignment.
Variable fuel : nat.
Notation never := (fun _ : list bterm => @None assignment).

Lemma run_app c p q s : session_run c fuel (p ++ q) s = let* (s1, e1) := session_run c fuel p s in let* (s2, e2) := session_run c fuel q s1 in Some (s2, e1 ++ e2).
Proof.
  revert s. induction p as [|x p IH]; intros s; cbn [app session_run bind].
  - destruct (session_run c fuel q s) as [[s2 e2]|]; reflexivity.
  - destruct (session_step c fuel x s) as [[s1 e]|]; cbn [bind]; [|reflexivity]. rewrite IH. destruct (session_run c fuel p s1) as [[s2 e2]|]; cbn [bind]; [|reflexivity].
    destruct (session_run c fuel q s2) as [[s3 e3]|]; reflexivity.
Qed.
Lemma run_length c p : forall s s1 es, session_run c fuel p s = Some (s1, es) -> List.length es = List.length p.
Proof.
  induction p as [|x p IH]; intros s s1 es; cbn [session_run]; [intros E; injection E as _ <-; reflexivity|].
  destruct (session_step c fuel x s) as [[s2 e]|]; cbn [bind]; [|discriminate]. destruct (session_run c fuel p s2) as [[s3 e3]|] eqn:R; cbn [bind]; [|discriminate].
  intros E. injection E as _ <-. cbn. f_equal. exact (IH _ _ _ R).
Qed.

(** ** What holds after every program *)
Definition shows_part (vs : list (text * sort)) (d : config) (b : assignment) : Prop := forall n t, In (n, t) vs -> exists v, option_value d n = Some v /\ shown b n t v.
Record keeps (p : list session_call) (s : solver) (es : list answer) (s0 : solver) (finds : list (list (text * sort) * assignment)) : Prop := Keeps {
  k_plain : session_run never fuel (filter adds p) new_solver = Some (s0, filter said es);
  k_vars : s_vars s = s_vars s0;
  k_built : built s0;
  k_terms : forall a, satisfies a (s_asserted s) <-> satisfies a (s_asserted s0) /\ forall vs b, In (vs, b) finds -> ~ same_values vs b a;
  k_finds : forall vs b, In (vs, b) finds -> incl vs (s_vars s) /\ exists d, given_with fuel p es vs d /\ shows vs d b;
  k_given : forall d, In (Gave (inl d)) es -> exists vs b, In (vs, b) finds /\ shows_part vs d b;
  k_model : match s_model s with
            | None => finds = [] /\ forall d, ~ In (Gave (inl d)) es
            | Some a => exists es1 d es2 vs, es = es1 ++ Gave (inl d) :: es2 /\ (forall d', ~ In (Gave (inl d')) es2) /\
                d = configuration vs a /\ incl vs (s_vars s) /\ NoDup (map fst vs) /\ exists vs', In (vs', a) finds /\ incl vs' vs
            end
}.

Lemma built_distinct s : built s -> NoDup (map fst (s_vars s)).
Proof. intros [_ B _]. exact B. Qed.
Lemma given_more p es vs d x e : List.length es = List.length p -> given_with fuel p es vs d -> given_with fuel (p ++ [x]) (es ++ [e]) vs d.
Proof.
  intros L (p1 & y & p2 & s1 & ns & -> & Y & N & R & V). exists p1, y, (p2 ++ [x]), s1, ns. split; [rewrite <- app_assoc; reflexivity|]. split; [exact Y|]. split; [|auto].
  rewrite nth_error_app1; [exact N|]. rewrite L, app_length. cbn. lia.
Qed.
Lemma filter_snoc {A} (f : A -> bool) l x : filter f (l ++ [x]) = filter f l ++ (if f x then [x] else []).
Proof. rewrite filter_app. cbn. destruct (f x); reflexivity. Qed.
Lemma shows_shows_part vs d b : shows vs d b -> shows_part vs d b.
Proof. intros (A & _). exact A. Qed.
Lemma part_incl vs vs' d b : incl vs vs' -> shows_part vs' d b -> shows_part vs d b.
Proof. intros I P n t J. apply P, I, J. Qed.

(** A step that asks and finds nothing new. *)
Lemma keep_same p s es s0 finds x e : List.length es = List.length p -> adds x = false -> said e = false -> keeps p s es s0 finds ->
  (forall d, e = Gave (inl d) -> exists a, s_model s = Some a /\ d = configuration (s_vars s) a) ->
  keeps (p ++ [x]) s (es ++ [e]) s0 finds.
Proof.
  intros L X Y K G. destruct K as [Kp Kv Kb Kt Kf Kg Km]. pose proof (built_distinct s0 Kb) as ND. rewrite <- Kv in ND. constructor; try assumption.
  - rewrite !filter_snoc, X, Y, !app_nil_r. exact Kp.
  - intros vs b I. destruct (Kf vs b I) as (Ic & d & Gd & Sd). split; [exact Ic|]. exists d. split; [apply given_more; assumption|exact Sd].
  - intros d I. apply in_app_or in I. destruct I as [I|[I|[]]]; [exact (Kg d I)|]. destruct (G d I) as (a & Ma & ->). rewrite Ma in Km.
    destruct Km as (es1 & d & es2 & vs & _ & _ & _ & Ic & _ & vs' & If & Ic'). exists vs', a. split; [exact If|]. apply part_incl with (s_vars s); [eapply incl_tran; eassumption|].
    apply shows_shows_part, configuration_shows. exact ND.
  - destruct (s_model s) as [a|] eqn:Ma.
    + destruct Km as (es1 & d & es2 & vs & -> & No & -> & Ic & Nv & vs' & If & Ic').
      assert (D : (exists d, e = Gave (inl d)) \/ forall d, e <> Gave (inl d)) by (destruct e as [|[c|]|]; [right; discriminate|left; eauto|right; discriminate|right; discriminate]).
      destruct D as [(d & ->)|N].
      * destruct (G d eq_refl) as (a' & Ea & ->). injection Ea as <-. exists (es1 ++ Gave (inl (configuration vs a)) :: es2), (configuration (s_vars s) a), [], (s_vars s).
        split; [reflexivity|]. split; [intros d' []|]. split; [reflexivity|]. split; [apply incl_refl|]. split; [exact ND|]. exists vs'. split; [exact If|eapply incl_tran; eassumption].
      * exists es1, (configuration vs a), (es2 ++ [e]), vs. split; [rewrite <- app_assoc; reflexivity|]. split; [|eauto 8].
        intros d' I. apply in_app_or in I. destruct I as [I|[I|[]]]; [exact (No d' I)|exact (N d' I)].
    + destruct Km as (F & No). split; [exact F|]. intros d I. apply in_app_or in I. destruct I as [I|[I|[]]]; [exact (No d I)|]. destruct (G d I) as (a & Q & _). discriminate.
Qed.
(** A step that finds a configuration. *)
Lemma keep_found p s es s0 finds x a : List.length es = List.length p -> asks x -> keeps p s es s0 finds ->
  keeps (p ++ [x]) (Solver (s_vars s) (s_asserted s ++ [exclusion (s_vars s) a]) (Some a)) (es ++ [Gave (inl (configuration (s_vars s) a))]) s0 (finds ++ [(s_vars s, a)]).
Proof.
  intros L X K. destruct K as [Kp Kv Kb Kt Kf Kg Km]. pose proof (built_distinct s0 Kb) as ND. rewrite <- Kv in ND.
  assert (adds x = false) as Xa by (destruct X as [-> | ->]; reflexivity). constructor; cbn [s_vars s_asserted s_model]; try assumption.
  - rewrite !filter_snoc, Xa. cbn [said]. rewrite !app_nil_r. exact Kp.
  - intros b. rewrite satisfies_app, Kt. split.
    + intros ((Sb & F) & E). split; [exact Sb|]. intros vs c I. apply in_app_or in I. destruct I as [I|[I|[]]]; [exact (F vs c I)|]. injection I as <- <-.
      specialize (E _ (or_introl eq_refl)). apply exclusion_excludes in E. exact E.
    + intros (Sb & F). split; [split; [exact Sb|]|].
      * intros vs c I. apply F, in_or_app. left. exact I.
      * intros t [<-|[]]. apply exclusion_excludes. apply F, in_or_app. right. left. reflexivity.
  - intros vs b I. apply in_app_or in I. destruct I as [I|[I|[]]].
    + destruct (Kf vs b I) as (Ic & d & Gd & Sd). split; [exact Ic|]. exists d. split; [apply given_more; assumption|exact Sd].
    + injection I as <- <-. split; [apply incl_refl|]. exists (configuration (s_vars s) a). split; [|apply configuration_shows; exact ND].
      exists p, x, [], s0, (filter said es). split; [reflexivity|]. split; [exact X|]. split; [rewrite nth_error_app2, L, Nat.sub_diag by lia; reflexivity|]. split; [exact Kp|exact Kv].
  - intros d I. apply in_app_or in I. destruct I as [I|[I|[]]].
    + destruct (Kg d I) as (vs & b & If & P). exists vs, b. split; [apply in_or_app; left; exact If|exact P].
    + injection I as <-. exists (s_vars s), a. split; [apply in_or_app; right; left; reflexivity|]. apply shows_shows_part, configuration_shows. exact ND.
  - exists es, (configuration (s_vars s) a), [], (s_vars s). split; [reflexivity|]. split; [intros d' []|]. split; [reflexivity|]. split; [apply incl_refl|]. split; [exact ND|].
    exists (s_vars s). split; [apply in_or_app; right; left; reflexivity|apply incl_refl].
Qed.
(** A step that adds. *)
Lemma keep_added p s es s0 finds c s1 e : List.length es = List.length p -> keeps p s es s0 finds -> solver_call fuel c s = Some (s1, e) ->
  exists s01, keeps (p ++ [Add c]) s1 (es ++ [Said e]) s01 finds.
Proof.
  intros L K E. destruct K as [Kp Kv Kb Kt Kf Kg Km]. pose proof (call_alike fuel c s s0 Kv) as A. rewrite E in A. destruct (solver_call fuel c s0) as [[s01 e0]|] eqn:E0; [|contradiction].
  destruct A as (<- & V & Mo & ts & T1 & T0). destruct (call_grows fuel c s s1 e E) as (new & Gr). assert (incl (s_vars s) (s_vars s1)) as Ig by (rewrite Gr; apply incl_appl, incl_refl).
  exists s01. constructor.
  - rewrite !filter_snoc. cbn [adds said]. rewrite run_app, Kp. cbn [bind session_run session_step]. rewrite E0. reflexivity.
  - exact V.
  - exact (built_call fuel c s0 s01 e Kb E0).
  - intros a. rewrite T1, T0, !satisfies_app, Kt. tauto.
  - intros vs b I. destruct (Kf vs b I) as (Ic & d & Gd & Sd). split; [eapply incl_tran; eassumption|]. exists d. split; [apply given_more; assumption|exact Sd].
  - intros d I. apply in_app_or in I. destruct I as [I|[I|[]]]; [exact (Kg d I)|discriminate].
  - rewrite Mo. destruct (s_model s) as [a|].
    + destruct Km as (es1 & d & es2 & vs & -> & No & De & Ic & Nv & Z). exists es1, d, (es2 ++ [Said e]), vs. split; [rewrite <- app_assoc; reflexivity|]. split.
      * intros d' I. apply in_app_or in I. destruct I as [I|[I|[]]]; [exact (No d' I)|discriminate].
      * split; [exact De|]. split; [eapply incl_tran; eassumption|]. split; [exact Nv|exact Z].
    + destruct Km as (F & No). split; [exact F|]. intros d I. apply in_app_or in I. destruct I as [I|[I|[]]]; [exact (No d I)|discriminate].
Qed.
Lemma keep_next p s es s0 finds x s1 r : List.length es = List.length p -> asks x -> keeps p s es s0 finds -> get_next check s = (s1, r) ->
  exists finds1, keeps (p ++ [x]) s1 (es ++ [Gave r]) s0 finds1.
Proof.
  intros L X K. unfold get_next. destruct (check (s_asserted s)) as [a|]; intros E; injection E as <- <-.
  - exists (finds ++ [(s_vars s, a)]). apply keep_found; assumption.
  - exists finds. apply keep_same; [exact L|destruct X as [-> | ->]; reflexivity|reflexivity|exact K|discriminate].
Qed.
Lemma kept p : forall s es, session_run check fuel p new_solver = Some (s, es) -> exists s0 finds, keeps p s es s0 finds.
Proof.
  induction p as [|x p IH] using rev_ind; intros s es R.
  - cbn in R. injection R as <- <-. exists new_solver, []. constructor; cbn; try reflexivity.
    + apply reached_built. constructor.
    + intros a. split; [intros H; split; [exact H|intros vs b []]|tauto].
    + intros vs b [].
    + intros d [].
    + split; [reflexivity|intros d []].
  - rewrite run_app in R. destruct (session_run check fuel p new_solver) as [[s1 es1]|] eqn:R1; cbn [bind] in R; [|discriminate]. destruct (IH s1 es1 eq_refl) as (s0 & finds & K).
    pose proof (run_length _ _ _ _ _ R1) as L. cbn [session_run] in R. destruct x as [c| | |]; cbn [session_step] in R.
    + destruct (solver_call fuel c s1) as [[s2 e]|] eqn:E; cbn [bind] in R; [|discriminate]. injection R as <- <-. destruct (keep_added _ _ _ _ _ _ _ _ L K E) as (s01 & K1). eauto.
    + destruct (get_next check s1) as [s2 r] eqn:E. cbn [bind] in R. injection R as <- <-. destruct (keep_next _ _ _ _ _ Next _ _ L (or_introl eq_refl) K E) as (f1 & K1). eauto.
    + unfold get_current in R. destruct (s_model s1) as [a|] eqn:Ma.
      * cbn [bind] in R. injection R as <- <-. exists s0, finds. apply keep_same; [exact L|reflexivity|reflexivity|exact K|]. intros d X. injection X as <-. exists a. auto.
      * destruct (get_next check s1) as [s2 r] eqn:E. cbn [bind] in R. injection R as <- <-. destruct (keep_next _ _ _ _ _ Current _ _ L (or_intror eq_refl) K E) as (f1 & K1). eauto.
    + cbn [bind] in R. injection R as <- <-. exists s0, finds. apply keep_same; [exact L|reflexivity|reflexivity|exact K|discriminate].
Qed.

(** ** The answers *)
Theorem next_answers p s es : session_run check fuel p new_solver = Some (s, es) -> right_about check (s_asserted s) ->
  exists s0, session_run never fuel (filter adds p) new_solver = Some (s0, filter said es) /\
  match snd (get_next check s) with
  | inl c => (exists a, satisfies a (s_asserted s0) /\ shows (s_vars s0) c a) /\ forall d, In (Gave (inl d)) es -> differs c d
  | inr e => e = Unsat /\ forall a, satisfies a (s_asserted s0) -> exists vs d, given_with fuel p es vs d /\ shows vs d a
  end.
Proof.
  intros R O. destruct (kept p s es R) as (s0 & finds & [Kp Kv Kb Kt Kf Kg Km]). pose proof (built_distinct s0 Kb) as ND. exists s0. split; [exact Kp|].
  unfold get_next. unfold right_about in O. destruct (check (s_asserted s)) as [a|]; cbn [snd].
  - apply Kt in O. destruct O as (Sa & N). rewrite Kv. split; [exists a; split; [exact Sa|apply configuration_shows; exact ND]|].
    intros d I. destruct (Kg d I) as (vs & b & If & P). destruct (Kf vs b If) as (Ic & _). rewrite Kv in Ic. specialize (N vs b If).
    assert (X : (exists n t, In (n, t) vs /\ value a (n, t) <> value b (n, t)) \/ forall n t, In (n, t) vs -> value b (n, t) = value a (n, t)).
    { clear - vs. induction vs as [|[n t] vs IH]; [right; intros n t []|]. destruct IH as [(m & u & J & Q)|A]; [left; exists m, u; split; [right; exact J|exact Q]|].
      assert ({value b (n, t) = value a (n, t)} + {value b (n, t) <> value a (n, t)}) as [Y|Y] by (decide equality; [apply Bool.bool_dec|apply Z.eq_dec]).
      - right. intros m u [J|J]; [injection J as <- <-; exact Y|exact (A m u J)].
      - left. exists n, t. split; [left; reflexivity|congruence]. }
    destruct X as [(n & t & J & Q)|A].
    + destruct (P n t J) as (v & Ov & Sv). exists n, v. split; [exact Ov|]. intros Oc. destruct (configuration_shows (s_vars s0) a ND) as (Ca & _). destruct (Ca n t (Ic _ J)) as (v' & Ov' & Sv').
      assert (v' = v) as -> by congruence. apply Q. apply (shown_same a b n t v Sv'). exact Sv.
    + exfalso. apply N. intros n t J. specialize (A n t J). unfold value in A. cbn in A. destruct t; congruence.
  - split; [reflexivity|]. intros a Sa.
    assert (X : (exists vs b, In (vs, b) finds /\ same_values vs b a) \/ forall vs b, In (vs, b) finds -> ~ same_values vs b a).
    { clear - finds. induction finds as [|[vs b] l IH]; [right; intros vs b []|]. destruct (same_values_dec vs b a) as [Y|Y]; [left; exists vs, b; split; [left; reflexivity|exact Y]|].
      destruct IH as [(v & c & J & Z)|Z]; [left; exists v, c; split; [right; exact J|exact Z]|right]. intros v c [J|J]; [injection J as <- <-; exact Y|exact (Z v c J)]. }
    destruct X as [(vs & b & If & Sv)|X]; [|exfalso; apply (O a), Kt; auto]. destruct (Kf vs b If) as (_ & d & Gd & Sd). exists vs, d. split; [exact Gd|]. exact (shows_same vs d b a Sd Sv).
Qed.
Theorem current_answers p s es : session_run check fuel p new_solver = Some (s, es) ->
  (forall d, ~ In (Gave (inl d)) es) /\ get_current check s = get_next check s \/
  exists es1 d es2 c s0, es = es1 ++ Gave (inl d) :: es2 /\ (forall d', ~ In (Gave (inl d')) es2) /\ get_current check s = (s, inl c) /\ agrees_with c d /\
    session_run never fuel (filter adds p) new_solver = Some (s0, filter said es) /\ forall n, option_value c n <> None <-> In n (map fst (s_vars s0)).
Proof.
  intros R. destruct (kept p s es R) as (s0 & finds & [Kp Kv Kb Kt Kf Kg Km]). pose proof (built_distinct s0 Kb) as ND. unfold get_current. destruct (s_model s) as [a|].
  - right. destruct Km as (es1 & d & es2 & vs & E & No & -> & Ic & Nv & _). exists es1, (configuration vs a), es2, (configuration (s_vars s) a), s0. split; [exact E|]. split; [exact No|]. split; [reflexivity|].
    rewrite Kv in *. pose proof (configuration_shows (s_vars s0) a ND) as (Ca & Cb). pose proof (configuration_shows vs a Nv) as (Da & Db). split; [|split; [exact Kp|]].
    + intros n v Ov. destruct (Db n v Ov) as (t & J). destruct (Da n t J) as (v1 & O1 & S1). destruct (Ca n t (Ic _ J)) as (v2 & O2 & S2). rewrite O2. f_equal.
      assert (v1 = v) as -> by congruence. exact (shown_fun _ _ _ _ _ S2 S1).
    + intros n. split.
      * destruct (option_value (configuration (s_vars s0) a) n) as [v|] eqn:O; [|congruence]. intros _. destruct (Cb n v O) as (t & J). apply in_map_iff. exists (n, t). auto.
      * intros J. apply in_map_iff in J. destruct J as ((m & t) & <- & J). destruct (Ca m t J) as (v & O & _). cbn. congruence.
  - left. split; [exact (proj2 Km)|reflexivity].
Qed.
Theorem ask_answers p s es : session_run check fuel p new_solver = Some (s, es) -> right_about check (s_asserted s) ->
  exists s0, session_run never fuel (filter adds p) new_solver = Some (s0, filter said es) /\
  match has_valid check s with
  | inr e => e = IllegalState /\ exists d, In (Gave (inl d)) es
  | inl b => (forall d, ~ In (Gave (inl d)) es) /\ (b = true <-> exists a, satisfies a (s_asserted s0))
  end.
Proof.
  intros R O. destruct (kept p s es R) as (s0 & finds & [Kp Kv Kb Kt Kf Kg Km]). exists s0. split; [exact Kp|]. unfold has_valid. destruct (s_model s) as [a|].
  - split; [reflexivity|]. destruct Km as (es1 & d & es2 & vs & -> & _). exists d. apply in_elt.
  - destruct Km as (-> & No). split; [exact No|]. unfold right_about in O. destruct (check (s_asserted s)) as [a|].
    + split; [intros _; exists a; apply Kt; exact O|reflexivity].
    + split; [discriminate|]. intros (a & Sa). exfalso. apply (O a), Kt. split; [exact Sa|intros vs b []].
Qed.
Theorem exhausted p s es : session_run check fuel p new_solver = Some (s, es) -> right_about check (s_asserted s) -> no_late_options fuel p ->
  exists s0, session_run never fuel (filter adds p) new_solver = Some (s0, filter said es) /\
  (snd (get_next check s) = inr Unsat <-> forall a, satisfies a (s_asserted s0) -> exists d, In (Gave (inl d)) es /\ shows (s_vars s0) d a).
Proof.
  intros R O L. destruct (next_answers p s es R O) as (s0 & Kp & N). exists s0. split; [exact Kp|]. destruct (snd (get_next check s)) as [c|e].
  - split; [discriminate|]. intros A. destruct N as ((a & Sa & Sc) & Df). destruct (A a Sa) as (d & I & Sd). destruct (Df d I) as (n & v & Od & Oc). exfalso. apply Oc.
    rewrite (shows_options (s_vars s0) c d a Sc Sd n). exact Od.
  - destruct N as (-> & N). split; [|reflexivity]. intros _ a Sa. destruct (N a Sa) as (vs & d & (p1 & x & p2 & s1 & ns & -> & X & Nt & R1 & ->) & Sd). exists d. split; [exact (nth_error_In _ _ Nt)|].
    rewrite <- (L p1 x p2 s1 ns s0 _ eq_refl X R1 Kp). exact Sd.
Qed.
(** Asking does not decide whether a program is defined. *)
Theorem asking_harmless p : session_run check fuel p new_solver = None <-> session_run never fuel (filter adds p) new_solver = None.
Proof.
  induction p as [|x p IH] using rev_ind; [cbn; split; discriminate|]. rewrite filter_snoc, !run_app. destruct (session_run check fuel p new_solver) as [[s es]|] eqn:R.
  - destruct (kept p s es R) as (s0 & finds & K). pose proof (k_plain _ _ _ _ _ K) as Kp. rewrite Kp. cbn [bind]. destruct x as [c| | |]; cbn [adds session_run session_step bind].
    + pose proof (call_alike fuel c s s0 (k_vars _ _ _ _ _ K)) as A. destruct (solver_call fuel c s) as [[s1 e]|], (solver_call fuel c s0) as [[s2 e']|]; try contradiction; cbn [bind]; split; congruence.
    + destruct (get_next check s). split; discriminate.
    + destruct (get_current check s). split; discriminate.
    + split; discriminate.
  - rewrite (proj1 IH eq_refl). cbn [bind]. tauto.
Qed.
End Oracle.
