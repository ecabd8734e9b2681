(** Numbers of configurations with a constraint, with its opposite and without. *)
From Coq Require Import List ZArith Bool Arith Lia.
From Verif Require Import Text TextProofs ConstraintModel ConstraintSpec ConfigurationModel ConfigurationSpec FeatureTreeModel FeatureTreeSpec FeatureTransactionModel FeatureBuildSpec
  FeatureEditSpec FeatureHistoryProofs SolverModel SolverSpec SolverLoadProofs SolverEnumerationProofs SolverFinal GeneratorProofs XmlModel XmlSpec EditValidSpec EditValidProofs EditValidOps ValidProofs SplitSpec SplitProofs.
Import ListNotations.
Local Open Scope list_scope.

(** What a constraint without division says depends on the options only. *)
Lemma meaning_values leaf leaf' d d' (c : cexpr cref) : without_division c -> (forall r, In r (leaves c) -> leaf r = leaf' r) -> meaning xorb leaf d c = meaning xorb leaf' d' c.
Proof.
  induction c as [o l IHl r IHr|o e IH|n|x]; cbn [without_division leaves meaning].
  - intros (No & Wl & Wr) H. rewrite (IHl Wl) by (intros y Y; apply H, in_or_app; auto). rewrite (IHr Wr) by (intros y Y; apply H, in_or_app; auto).
    destruct (meaning xorb leaf' d' l) as [[x|x]|], (meaning xorb leaf' d' r) as [[y|y]|]; try reflexivity. destruct o; try reflexivity. destruct (No eq_refl).
  - intros W H. rewrite (IH W H). reflexivity.
  - reflexivity.
  - intros _ H. apply H. left. reflexivity.
Qed.
Lemma says_values h m t vs k c k' c' a b : represents h m t -> features_registered h m vs -> mentions_names m c -> without_division c -> opposite k c k' c' -> same_values vs a b -> says h m a k c -> says h m b k c.
Proof.
  intros R (_ & Rg) Mn Wd Op Sv. assert (Lf : forall mixed r, In r (leaves c) -> said h m mixed a r = said h m mixed b r).
  { intros mixed r I. destruct (Mn r I) as (s & i & -> & G). cbn [said]. rewrite G. cbn [leaf_value]. destruct (feature_at h i) as [f|] eqn:F; [|reflexivity].
    destruct (get_stored h m t R s i G) as (f0 & St & _). assert (f0 = f) as -> by (destruct St as (_ & F0); congruence).
    pose proof (Sv (f_name f) (if numeric_kind (f_kind f) then SInt else SBool) (proj2 (Rg _ _) (ex_intro _ i (ex_intro _ f (conj St (conj eq_refl eq_refl)))))) as E.
    destruct (numeric_kind (f_kind f)); [rewrite E; reflexivity|]. rewrite E. reflexivity. }
  destruct Op; cbn [says].
  - rewrite (meaning_values _ _ (a_div0 a) (a_div0 b) c Wd (Lf false)). exact (fun x => x).
  - rewrite (meaning_values _ _ (a_div0 a) (a_div0 b) c Wd (Lf false)). exact (fun x => x).
  - rewrite (meaning_values _ _ (a_div0 a) (a_div0 b) c Wd (Lf true)). intros [X|(X & _)]; [left; exact X|discriminate X].
Qed.
Lemma opposite_says h m k c k' c' a : opposite k c k' c' -> well_said h m k c -> (says h m a k c \/ says h m a k' c') /\ ~ (says h m a k c /\ says h m a k' c').
Proof.
  intros Op Ws. destruct (Ws a) as (b & E). destruct Op; cbn [says meaning]; rewrite E.
  - destruct b; cbn; (split; [tauto|]); intros (X & Y); congruence.
  - destruct b; cbn; (split; [tauto|]); intros (X & Y); congruence.
  - destruct b; cbn; (split; [tauto|]); intros ([X|(X & _)] & [Y|(Y & _)]); congruence.
Qed.
Lemma opposite_fine h m k c k' c' : opposite k c k' c' -> well_said h m k c -> mentions_names m c -> xor_free c -> well_said h m k' c' /\ mentions_names m c' /\ xor_free c'.
Proof.
  intros Op Ws Mn Xf. destruct Op; (split; [|split; [exact Mn|exact Xf]]); intros a; destruct (Ws a) as (b & E); cbn [meaning].
  - rewrite E. eauto.
  - rewrite E. eauto.
  - exists b. exact E.
Qed.

Lemma same_options h m h' m' vs vs' : features_registered h m vs -> features_registered h' m' vs' ->
  (forall n so, (exists i f, stored h' m' i f /\ n = f_name f /\ so = if numeric_kind (f_kind f) then SInt else SBool) <->
                (exists i f, stored h m i f /\ n = f_name f /\ so = if numeric_kind (f_kind f) then SInt else SBool)) ->
  forall v, In v vs' <-> In v vs.
Proof. intros (_ & A) (_ & B) Q (n, so). rewrite A, B. apply Q. Qed.

(** The configurations with a constraint are among those without it. *)
Lemma listed_before vs vs' ts ts' l : (forall v, In v vs' <-> In v vs) -> (forall a, satisfies a ts' -> satisfies a ts) -> lists_solutions vs' ts' l -> lists_solutions vs ts l.
Proof.
  intros Q S (A & B). split; [|exact B]. intros c I. destruct (A c I) as (a & Sa & Sh). exists a. split; [exact (S a Sa)|exact (shows_set vs' vs c a Q Sh)].
Qed.
Lemma differing vs a b c d : shows vs c a -> shows vs d b -> ~ same_values vs a b -> exists n, option_value c n <> option_value d n.
Proof.
  intros (Ha & _) (Hb & _) Sv.
  assert (X : exists n t, In (n, t) vs /\ value a (n, t) <> value b (n, t)).
  { clear - Sv. rewrite <- projection_same in Sv. unfold projection in Sv. induction vs as [|[n t] ws IH]; [exfalso; apply Sv; reflexivity|]. cbn in Sv.
    assert (Q : {value a (n, t) = value b (n, t)} + {value a (n, t) <> value b (n, t)}) by (repeat decide equality).
    destruct Q as [Q|Q]; [|exists n, t; split; [left; reflexivity|exact Q]]. destruct IH as (n' & t' & I & Y); [intros E; apply Sv; congruence|]. exists n', t'. split; [right; exact I|exact Y]. }
  destruct X as (n & t & I & X). exists n. destruct (Ha n t I) as (s & Oa & Sa). destruct (Hb n t I) as (s' & Ob & Sb). rewrite Oa, Ob. intros E. injection E as ->.
  apply X. apply (shown_same a b n t s' Sa). exact Sb.
Qed.

(** Every constraint leaves at most as many configurations as there were. *)
Lemma fewer ord h m t k c : is_order ord -> represents h m t -> all_resolved m -> supported h m -> no_xor m -> mentions_names m c -> well_said h m k c -> xor_free c ->
  exists h' m', exec ord (OAddConstraint k c) (h, m) = Some ((h', m'), None) /\
    exists N, forall fuel, N <= fuel -> exists s s', load ord fuel h m = Some s /\ load ord fuel h' m' = Some s' /\
    forall check check', decides check (s_vars s) (s_asserted s) -> decides check' (s_vars s') (s_asserted s') ->
    exists n n' M, n' <= n /\ forall fuel', M <= fuel' -> get_num check fuel' s = number n /\ get_num check' fuel' s' = number n'.
Proof.
  intros Or R A Su Nx Mn Ws Xf. destruct (added ord h m t k c R A Su Nx Mn Ws Xf) as (h1 & m1 & t1 & E & R1 & Su1 & Nx1 & V1 & O1). exists h1, m1. split; [exact E|].
  destruct (numbered ord h m t Or R Su Nx) as (N & H). destruct (numbered ord h1 m1 t1 Or R1 Su1 Nx1) as (N1 & H1). exists (N + N1). intros fuel L.
  destruct (H fuel ltac:(lia)) as (s & Es & Rg & V & C). destruct (H1 fuel ltac:(lia)) as (s1 & Es1 & Rg1 & W1 & C1). exists s, s1. split; [exact Es|]. split; [exact Es1|].
  intros check check1 D D1.
  destruct (count_all check s (load_reached _ _ _ _ _ Es) D) as (M0 & K). destruct (K M0 (le_n _)) as ((l & Ll) & _).
  destruct (count_all check1 s1 (load_reached _ _ _ _ _ Es1) D1) as (M1 & K1). destruct (K1 M1 (le_n _)) as ((l1 & Ll1) & _).
  destruct (C l Ll check D) as (M2 & G). destruct (C1 l1 Ll1 check1 D1) as (M3 & G1).
  exists (List.length l), (List.length l1), (M2 + M3). split; [|intros fuel' L'; split; [apply G; lia|apply G1; lia]].
  apply (solutions_length (s_vars s) (s_asserted s)); [|exact Ll]. apply (listed_before _ (s_vars s1) _ (s_asserted s1)); [exact (same_options h m h1 m1 _ _ Rg Rg1 O1)| |exact (proj1 Ll1)].
  intros a Sa. apply V. apply W1 in Sa. apply V1 in Sa. apply Sa.
Qed.

(** A constraint and its opposite share the configurations between them. *)
Lemma split_numbers ord h m t k c k' c' : is_order ord -> represents h m t -> all_resolved m -> supported h m -> no_xor m -> mentions_names m c -> well_said h m k c -> xor_free c -> without_division c -> opposite k c k' c' ->
  exists h1 m1 h2 m2, exec ord (OAddConstraint k c) (h, m) = Some ((h1, m1), None) /\ exec ord (OAddConstraint k' c') (h, m) = Some ((h2, m2), None) /\
    exists N, forall fuel, N <= fuel -> exists s s1 s2, load ord fuel h m = Some s /\ load ord fuel h1 m1 = Some s1 /\ load ord fuel h2 m2 = Some s2 /\
    forall check check1 check2, decides check (s_vars s) (s_asserted s) -> decides check1 (s_vars s1) (s_asserted s1) -> decides check2 (s_vars s2) (s_asserted s2) ->
    exists n1 n2 M, forall fuel', M <= fuel' -> get_num check fuel' s = number (n1 + n2) /\ get_num check1 fuel' s1 = number n1 /\ get_num check2 fuel' s2 = number n2.
Proof.
  intros Or R A Su Nx Mn Ws Xf Wd Op. destruct (opposite_fine h m k c k' c' Op Ws Mn Xf) as (Ws' & Mn' & Xf').
  destruct (added ord h m t k c R A Su Nx Mn Ws Xf) as (h1 & m1 & t1 & E1 & R1 & Su1 & Nx1 & V1 & O1). destruct (added ord h m t k' c' R A Su Nx Mn' Ws' Xf') as (h2 & m2 & t2 & E2 & R2 & Su2 & Nx2 & V2 & O2).
  exists h1, m1, h2, m2. split; [exact E1|]. split; [exact E2|].
  destruct (numbered ord h m t Or R Su Nx) as (N & H). destruct (numbered ord h1 m1 t1 Or R1 Su1 Nx1) as (N1 & H1). destruct (numbered ord h2 m2 t2 Or R2 Su2 Nx2) as (N2 & H2). exists (N + N1 + N2). intros fuel L.
  destruct (H fuel ltac:(lia)) as (s & Es & Rg & V & C). destruct (H1 fuel ltac:(lia)) as (s1 & Es1 & Rg1 & W1 & C1). destruct (H2 fuel ltac:(lia)) as (s2 & Es2 & Rg2 & W2 & C2).
  exists s, s1, s2. split; [exact Es|]. split; [exact Es1|]. split; [exact Es2|]. intros check check1 check2 D D1 D2.
  destruct (count_all check1 s1 (load_reached _ _ _ _ _ Es1) D1) as (M1 & K1). destruct (K1 M1 (le_n _)) as ((l1 & Ll1) & _).
  destruct (count_all check2 s2 (load_reached _ _ _ _ _ Es2) D2) as (M2 & K2). destruct (K2 M2 (le_n _)) as ((l2 & Ll2) & _).
  pose proof (same_options h m h1 m1 _ _ Rg Rg1 O1) as Q1. pose proof (same_options h m h2 m2 _ _ Rg Rg2 O2) as Q2.
  assert (Ll : lists_all_solutions (s_vars s) (s_asserted s) (l1 ++ l2)).
  { destruct Ll1 as ((A1 & B1) & F1). destruct Ll2 as ((A2 & B2) & F2).
    assert (P1 : forall x, In x l1 -> exists a, SolverSpec.valid h m a /\ says h m a k c /\ shows (s_vars s) x a).
    { intros x I. destruct (A1 x I) as (a & Sa & Sh). apply W1 in Sa. apply V1 in Sa. exists a. split; [apply Sa|]. split; [apply Sa|]. exact (shows_set _ _ x a Q1 Sh). }
    assert (P2 : forall x, In x l2 -> exists a, SolverSpec.valid h m a /\ says h m a k' c' /\ shows (s_vars s) x a).
    { intros x I. destruct (A2 x I) as (a & Sa & Sh). apply W2 in Sa. apply V2 in Sa. exists a. split; [apply Sa|]. split; [apply Sa|]. exact (shows_set _ _ x a Q2 Sh). }
    assert (Cross : forall x y, In x l1 -> In y l2 -> exists n, option_value x n <> option_value y n).
    { intros x y Ix Iy. destruct (P1 x Ix) as (a & _ & Sa & Ha). destruct (P2 y Iy) as (b & _ & Sb & Hb). apply (differing (s_vars s) a b x y Ha Hb). intros Sv.
      apply (proj2 (opposite_says h m k c k' c' b Op Ws)). split; [|exact Sb]. exact (says_values h m t (s_vars s) k c k' c' a b R Rg Mn Wd Op Sv Sa). }
    split; [split|].
    - intros x I. apply in_app_or in I. destruct I as [I|I]; [destruct (P1 x I) as (a & Va & _ & Sh)|destruct (P2 x I) as (a & Va & _ & Sh)]; exists a; (split; [apply V; exact Va|exact Sh]).
    - intros i j x y Ei Ej Nij. destruct (Nat.lt_ge_cases i (List.length l1)) as [Li|Li], (Nat.lt_ge_cases j (List.length l1)) as [Lj|Lj].
      + rewrite nth_error_app1 in Ei by exact Li. rewrite nth_error_app1 in Ej by exact Lj. exact (B1 i j x y Ei Ej Nij).
      + rewrite nth_error_app1 in Ei by exact Li. rewrite nth_error_app2 in Ej by exact Lj. apply Cross; [exact (nth_error_In _ _ Ei)|exact (nth_error_In _ _ Ej)].
      + rewrite nth_error_app2 in Ei by exact Li. rewrite nth_error_app1 in Ej by exact Lj. destruct (Cross y x (nth_error_In _ _ Ej) (nth_error_In _ _ Ei)) as (n & Y). exists n. intros Z. apply Y. symmetry. exact Z.
      + rewrite nth_error_app2 in Ei by exact Li. rewrite nth_error_app2 in Ej by exact Lj. apply (B2 _ _ x y Ei Ej). lia.
    - intros a Sa. apply V in Sa. destruct (proj1 (opposite_says h m k c k' c' a Op Ws)) as [X|X].
      + destruct (F1 a) as (x & I & Sh); [apply W1, V1; split; assumption|]. exists x. split; [apply in_or_app; auto|exact (shows_set _ _ x a Q1 Sh)].
      + destruct (F2 a) as (x & I & Sh); [apply W2, V2; split; assumption|]. exists x. split; [apply in_or_app; auto|exact (shows_set _ _ x a Q2 Sh)]. }
  destruct (C _ Ll check D) as (X & G). destruct (C1 l1 Ll1 check1 D1) as (X1 & G1). destruct (C2 l2 Ll2 check2 D2) as (X2 & G2).
  exists (List.length l1), (List.length l2), (X + X1 + X2). intros fuel' L'. rewrite <- app_length. split; [apply G; lia|]. split; [apply G1; lia|apply G2; lia].
Qed.
