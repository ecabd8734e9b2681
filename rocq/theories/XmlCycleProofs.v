(** Writing and reading back a second time changes nothing. *)
From Coq Require Import List ZArith NArith Arith Bool Ascii String Permutation Lia.
From Verif Require Import Text TextProofs NumSpec ConstraintModel ConstraintParserModel ConstraintSpec ConstraintRoundTrip SourceRangeModel FeatureTreeModel FeatureTreeSpec FeatureTreeProofs FeatureTransactionModel FeatureTransactionSpec FeatureEditSpec FeatureEditProofs
  FeatureCloneSpec FeatureBuildSpec SxfmModel XmlModel XmlWriterModel XmlSpec XmlDetectProofs XmlDetectFinal XmlTripSpec XmlTripDoc XmlTripCalls XmlTripWrite XmlTripFinal SolverModel SolverSpec ValidProofs ValidTripProofs XmlCycleSpec.
Import ListNotations.

(** ** Texts *)
Lemma implies_twice {F} (e : cexpr F) : excludes_as_implies (excludes_as_implies e) = excludes_as_implies e.
Proof. induction e as [o l IHl r IHr|o e IH|n|r]; try reflexivity; [destruct o|]; cbn; congruence. Qed.
Lemma implies_pair {F} (e : cexpr F) : pair (excludes_as_implies e) -> excludes_as_implies e = e.
Proof.
  intros (o & a & b & O & E). destruct e as [o' l r|o' e|n|r]; try discriminate.
  destruct o'; cbn in E; try (injection E as <- El Er; destruct O; discriminate); injection E as <- El Er.
  destruct l as [[]| | |]; try discriminate. destruct r as [[]| | |]; try discriminate. cbn in El, Er |- *. congruence.
Qed.
Lemma implies_no_exclusion {F} (e : cexpr F) a b : excludes_as_implies e <> CBin BExcludes a b.
Proof. destruct e as [[] l r|o e|n|r]; discriminate. Qed.
Lemma implies_expressible e : expressible e -> expressible (excludes_as_implies e).
Proof.
  induction e as [o l IHl r IHr|o e IH|n|r]; cbn [expressible]; intros X; [|cbn; auto|exact X|exact X].
  destruct X as (N1 & N2 & L & R). destruct o; cbn [excludes_as_implies expressible]; repeat split; auto; discriminate.
Qed.

(** ** Values *)
Lemma int32_unique v w w' : as_int32 v w -> as_int32 v w' -> w' = w.
Proof. intros (R & k & E) (R' & k' & E'). assert (k = k')%Z by lia. lia. Qed.
Lemma int32_again v w w' : as_int32 v w -> as_int32 w w' -> w' = w.
Proof. intros (R & k & E) (R' & k' & E'). assert (k' = 0)%Z by lia. lia. Qed.
Lemma forall2_fun {A B} (P : A -> B -> Prop) a b b' : (forall x y y', P x y -> P x y' -> y' = y) -> Forall2 P a b -> Forall2 P a b' -> b' = b.
Proof. intros U F. revert b'. induction F as [|x y a b H F IH]; intros b' F'; inversion F' as [|? y' ? b'' H' F'']; subst; [reflexivity|]. f_equal; [exact (U x y y' H H')|auto]. Qed.
Lemma forall2_again {A} (P : A -> A -> Prop) a b b' : (forall x y y', P x y -> P y y' -> y' = y) -> Forall2 P a b -> Forall2 P b b' -> b' = b.
Proof. intros U F. revert b'. induction F as [|x y a b H F IH]; intros b' F'; inversion F' as [|? y' ? b'' H' F'']; subst; [reflexivity|]. f_equal; [exact (U x y y' H H')|auto]. Qed.
Lemma values_unique vs ws ws' : values_back vs ws -> values_back vs ws' -> ws' = ws.
Proof.
  intros (a & b & v & -> & -> & F) (a' & b' & v' & E & -> & F'). apply app_inj_tail in E. destruct E as (<- & <-). f_equal. exact (forall2_fun _ a b b' int32_unique F F').
Qed.
Lemma values_again vs ws ws' : values_back vs ws -> values_back ws ws' -> ws' = ws.
Proof.
  intros (a & b & v & -> & -> & F) (a' & b' & v' & E & -> & F'). apply app_inj_tail in E. destruct E as (<- & <-). f_equal. exact (forall2_again _ a b b' int32_again F F').
Qed.
Lemma kind_unique k l l' : kind_back k l -> kind_back k l' -> l' = l.
Proof. destruct k as [|[lo hi|vs] s| |]; cbn; intros H H0; try congruence. destruct H as (ws & -> & V). destruct H0 as (ws' & -> & V'). rewrite (values_unique _ _ _ V V'). reflexivity. Qed.
Lemma kind_again k l l' : kind_back k l -> kind_back l l' -> l' = l.
Proof.
  destruct k as [|[lo hi|vs] s| |]; cbn; intros X Y; try (subst l; exact Y).
  destruct X as (ws & -> & V). cbn in Y. destruct Y as (ws' & -> & V'). rewrite (values_again _ _ _ V V'). reflexivity.
Qed.
Lemma kind_root k l : kind_back k l -> (l = FRoot <-> k = FRoot).
Proof. destruct k as [|[lo hi|vs] s| |]; cbn; intros X; try (subst l; tauto); subst; try (split; discriminate). destruct X as (ws & -> & _). split; discriminate. Qed.
Lemma place_again r : place_back (place_back r) = place_back r.
Proof. reflexivity. Qed.
Lemma back_again f g k : back f g -> back g k -> same_data g k.
Proof.
  intros (N & O & K & X) (N' & O' & K' & X'). unfold same_data. rewrite N', O', O. split; [reflexivity|]. rewrite (kind_again _ _ _ K K'). split; [reflexivity|].
  pose proof (kind_root _ _ K) as Kr.
  assert (Y : f_locations k = f_locations g /\ f_optional k = f_optional g).
  { destruct (f_kind f) eqn:Ef; destruct (f_kind g) eqn:Eg; try (destruct Kr as (Kr & Kr'); first [discriminate (Kr eq_refl)|discriminate (Kr' eq_refl)]);
    destruct X as (Xl & Xo), X' as (Xl' & Xo'); rewrite Xl', Xo', Xl, Xo; try rewrite map_map; auto. }
  tauto.
Qed.
Lemma back_unique f g k : back f g -> back f k -> same_data g k.
Proof.
  intros (N & O & K & X) (N' & O' & K' & X'). unfold same_data. rewrite N', O', O, N. split; [reflexivity|]. rewrite (kind_unique _ _ _ K K'). split; [reflexivity|].
  assert (Y : f_locations k = f_locations g /\ f_optional k = f_optional g) by (destruct (f_kind f); split; destruct X, X'; congruence). tauto.
Qed.
Lemma back_same f g k : back f g -> same_data g k -> back f k.
Proof.
  intros (N & O & K & X) (N' & K' & Op & L & O'). unfold back. rewrite N', K', Op, L, O'. auto.
Qed.

(** ** The second trip *)
Lemma back_names h m h' m' : model_back h m h' m' -> forall s, (exists i, get_feature m s = Some i) <-> exists i, get_feature m' s = Some i.
Proof.
  intros Mb s. split; intros (i & G).
  - destruct (get_feature m' s) as [j|] eqn:E; [eauto|exfalso]. rewrite (trip_names_back _ _ _ _ Mb s E) in G. discriminate.
  - destruct (get_feature m s) as [j|] eqn:E; [eauto|exfalso]. rewrite (trip_names_forth _ _ _ _ Mb s E) in G. discriminate.
Qed.

Section Trip.
Variables (h : heap) (m : fmodel) (t : tree) (h1 : heap) (m1 : fmodel) (t1 : tree).
Hypothesis R : represents h m t.
Hypothesis W : writable h m.
Hypothesis Mb : model_back h m h1 m1.
Hypothesis R1 : represents h1 m1 t1.

Lemma optional_back x i i1 p : get_feature m x = Some i -> get_feature m1 x = Some i1 -> child_in h m p i ->
  ((exists f, feature_at h1 i1 = Some f /\ f_optional f = false) <-> exists f, feature_at h i = Some f /\ f_optional f = false).
Proof.
  intros Gx Gx' C. destruct (names_data h m t R x i Gx) as (f & F & _). destruct (mb_features _ _ _ _ Mb x i f Gx F) as (j & g & Gj & Fg & (_ & _ & _ & B)). assert (j = i1) as -> by congruence.
  assert (Nk : f_kind f <> FRoot). { intros K. apply (wr_kind h m W _ _ f Gx F) in K. rewrite (top_id h m t R) in K. injection K as K. apply (no_parent_top h m t R p). rewrite K. apply C. }
  assert (O : f_optional g = f_optional f) by (destruct (f_kind f); try apply B; contradiction).
  split; intros (f' & F' & X); [exists f|exists g]; (split; [assumption|]); congruence.
Qed.
Lemma child_forth s p p1 : get_feature m s = Some p -> get_feature m1 s = Some p1 ->
  forall i, child_in h m p i -> exists x i1, get_feature m x = Some i /\ get_feature m1 x = Some i1 /\ child_in h1 m1 p1 i1.
Proof.
  intros G G1 i C. apply (child_name h m p i s (names_data h m t R) G) in C. destruct C as (x & Gx & P). destruct (proj1 (back_names _ _ _ _ Mb x) (ex_intro _ _ Gx)) as (i1 & Gx1). exists x, i1. split; [exact Gx|]. split; [exact Gx1|].
  apply (child_name h1 m1 p1 i1 s (names_data h1 m1 t1 R1) G1). exists x. split; [exact Gx1|]. apply (mb_parents _ _ _ _ Mb). exact P.
Qed.
Lemma child_back s p p1 : get_feature m s = Some p -> get_feature m1 s = Some p1 ->
  forall i1, child_in h1 m1 p1 i1 -> exists x i, get_feature m x = Some i /\ get_feature m1 x = Some i1 /\ child_in h m p i.
Proof.
  intros G G1 i1 C. apply (child_name h1 m1 p1 i1 s (names_data h1 m1 t1 R1) G1) in C. destruct C as (x & Gx & P). destruct (proj2 (back_names _ _ _ _ Mb x) (ex_intro _ _ Gx)) as (i & Gx'). exists x, i. split; [exact Gx'|]. split; [exact Gx|].
  apply (child_name h m p i s (names_data h m t R) G). exists x. split; [exact Gx'|]. apply (mb_parents _ _ _ _ Mb). exact P.
Qed.

(** The pairs stated by a model that was read back. *)
Lemma stated_pair e : pair e -> stated h1 (all_constraints m1) e -> boolean_back h m e.
Proof.
  intros P (c & I & S1). unfold all_constraints in I. rewrite !in_app_iff in I.
  assert (No : forall c0, In c0 (all_constraints m) -> constraint_back h h1 c0 c -> boolean_back h m e).
  { intros c0 I0 (e0 & S0 & S0'). pose proof (spelled_unique _ _ _ _ S0' S1) as E. left. split; [exact P|]. exists c0. split; [exact I0|]. rewrite <- E in P |- *. rewrite (implies_pair _ P). exact S0. }
  destruct I as [I|[I|I]].
  - apply (mb_boolean _ _ _ _ Mb). exists c. auto.
  - destruct (forall2_right _ _ _ (mb_nonboolean _ _ _ _ Mb) c I) as (c0 & I0 & B). apply (No c0); [|exact B]. unfold all_constraints. rewrite !in_app_iff. auto.
  - apply in_map_iff in I. destruct I as (x1 & <- & I). destruct (forall2_right _ _ _ (mb_mixed _ _ _ _ Mb) x1 I) as (x0 & I0 & B & _). apply (No (x_con x0)); [|exact B]. unfold all_constraints. rewrite !in_app_iff. right. right. apply in_map. exact I0.
Qed.
Lemma exclusion_spelled h0 m0 t0 x y a b : represents h0 m0 t0 -> get_feature m0 x = Some a -> get_feature m0 y = Some b ->
  spelled h0 (CBin BExcludes (CFeat (Ref a)) (CFeat (Ref b))) (CBin BExcludes (CFeat (U x)) (CFeat (U y))).
Proof.
  intros R0 Ga Gb. destruct (names_data h0 m0 t0 R0 x a Ga) as (f & F & N). destruct (names_data h0 m0 t0 R0 y b Gb) as (g & G & N').
  constructor; constructor; [exists f|exists g]; rewrite T_U; auto.
Qed.
Lemma exclusion_back x y a b a1 b1 : all_resolved m -> get_feature m x = Some a -> get_feature m y = Some b -> get_feature m1 x = Some a1 -> get_feature m1 y = Some b1 ->
  states_exclusion m1 a1 b1 -> together h a b \/ states_exclusion m a b.
Proof.
  intros Rs Ga Gb Ga1 Gb1 (c & I & E).
  assert (B : boolean_back h m (CBin BExcludes (CFeat (U x)) (CFeat (U y)))).
  { apply stated_pair; [eexists _, _, _; split; [right|]; reflexivity|]. exists c. split; [exact I|]. rewrite E. exact (exclusion_spelled h1 m1 t1 x y a1 b1 R1 Ga1 Gb1). }
  destruct B as [(_ & c0 & I0 & S0)|[X|X]].
  - right. exists c0. split; [exact I0|]. inversion S0 as [o l r l' r' Sl Sr E0| | |]; subst. inversion Sl as [| | |ra sa Ca]; subst. inversion Sr as [| | |rb sb Cb]; subst. pose proof (Rs c0 ra I0) as La. pose proof (Rs c0 rb I0) as Lb.
    rewrite <- E0 in La, Lb. cbn [leaves app In] in La, Lb. destruct (La (or_introl eq_refl)) as (u & i & -> & Gu). destruct (Lb (or_intror (or_introl eq_refl))) as (v & j & -> & Gv).
    destruct Ca as (f & F & Nf). destruct Cb as (g & Gf & Ng). rewrite T_U in Nf, Ng. rewrite (name_unique h m t R i u f Gu F) in Nf. rewrite (name_unique h m t R j v g Gv Gf) in Ng. congruence.
  - destruct X as (sa & sb & i & j & E' & Gi & Gj & _ & To). injection E' as <- <-. rewrite T_U in Gi, Gj. left. congruence.
  - destruct X as (c0 & E' & _). symmetry in E'. destruct (implies_no_exclusion _ _ _ E').
Qed.
Lemma apart_members s p p1 a1 b1 : get_feature m s = Some p -> get_feature m1 s = Some p1 -> apart h m p -> child_in h1 m1 p1 a1 -> child_in h1 m1 p1 b1 -> together h1 a1 b1.
Proof.
  intros G G1 Ap Ca Cb. destruct (mb_groups _ _ _ _ Mb s p p1 G G1) as (_ & _ & Hg). pose proof (proj1 (Hg a1 Ca) Ap) as Ha. pose proof (proj1 (Hg b1 Cb) Ap) as Hb.
  destruct Ca as ((sa & Ga) & _). destruct Cb as ((sb & Gb) & _). destruct (get_stored h1 m1 t1 R1 sa a1 Ga) as (fa & Sa & _). destruct (get_stored h1 m1 t1 R1 sb b1 Gb) as (fb & Sb & _).
  destruct (hangs_group h1 m1 t1 R1 _ _ _ _ Sa Ha) as (ca & q & cq & C1 & P1 & I1 & Cq & D & Pq). destruct (hangs_group h1 m1 t1 R1 _ _ _ _ Sb Hb) as (cb & q' & cq' & C2 & P2 & I2 & Cq' & D' & Pq').
  assert (q = q') as -> by exact (mb_one_group _ _ _ _ Mb p1 q q' cq cq' I1 I2 Cq Cq' Pq Pq'). exists ca, cb, q', cq', RAlternative. auto 8.
Qed.
Lemma group_apart s p p1 k : get_feature m s = Some p -> get_feature m1 s = Some p1 -> group_of h1 m1 p1 k -> apart h m p /\ k = RAlternative.
Proof. intros G G1 X. destruct (mb_groups _ _ _ _ Mb s p p1 G G1) as (Iff & No & _). destruct k; [split; [apply Iff; exact X|reflexivity]|destruct (No X)]. Qed.

Lemma apart_again s p p1 : all_resolved m -> get_feature m s = Some p -> get_feature m1 s = Some p1 -> (apart h1 m1 p1 <-> apart h m p).
Proof.
  intros Rs G G1. split.
  - intros ((a1 & b1 & Ka & Kb & N) & X). split.
    + destruct (child_back s p p1 G G1 a1 Ka) as (x & a & Ga & Ga1 & Ca). destruct (child_back s p p1 G G1 b1 Kb) as (y & b & Gb & Gb1 & Cb). exists a, b. split; [exact Ca|]. split; [exact Cb|]. intros ->. rewrite (same_name h m t R x y b Ga Gb) in Ga1. congruence.
    + intros a Ka0. destruct (child_forth s p p1 G G1 a Ka0) as (x & a2 & Ga & Ga1 & Ca). destruct (X a2 Ca) as (O & E). split; [apply (optional_back x a a2 p); auto|]. intros b Kb0 Nb. destruct (child_forth s p p1 G G1 b Kb0) as (y & b2 & Gb & Gb1 & Cb).
      destruct (E b2 Cb) as [To|Se]; [intros ->; apply Nb; rewrite (same_name h1 m1 t1 R1 x y a2 Ga1 Gb1) in Ga; congruence| |exact (exclusion_back x y a b a2 b2 Rs Ga Gb Ga1 Gb1 Se)].
      destruct (together_group h1 m1 t1 R1 a2 b2 x y p1 Ga1 Gb1 To (proj2 Ca)) as (k & Gk & _). destruct (group_apart s p p1 k G G1 Gk) as ((_ & Ap) & _). exact (proj2 (Ap a Ka0) b Kb0 Nb).
  - intros Ap. pose proof Ap as ((a & b & Ka & Kb & N) & X). split.
    + destruct (child_forth s p p1 G G1 a Ka) as (x & a1 & Ga & Ga1 & Ca). destruct (child_forth s p p1 G G1 b Kb) as (y & b1 & Gb & Gb1 & Cb). exists a1, b1. split; [exact Ca|]. split; [exact Cb|]. intros ->. rewrite (same_name h1 m1 t1 R1 x y b1 Ga1 Gb1) in Ga. congruence.
    + intros a1 Ka0. destruct (child_back s p p1 G G1 a1 Ka0) as (x & a2 & Ga & Ga1 & Ca). destruct (X a2 Ca) as (O & _). split; [apply (optional_back x a2 a1 p); auto|]. intros b1 Kb0 Nb. left. exact (apart_members s p p1 a1 b1 G G1 Ap Ka0 Kb0).
Qed.

Lemma group_above a b sa sb : get_feature m1 sa = Some a -> get_feature m1 sb = Some b -> together h1 a b ->
  exists p s, get_feature m1 s = Some p /\ feature_above h1 a p /\ feature_above h1 b p.
Proof.
  intros Ga Gb (ca & cb & q & cq & k & Ca & Cb & Pa & Pb & Cq & Dq). pose proof (mb_tree _ _ _ _ Mb) as Ts. destruct (ts_root _ _ Ts) as (r & cr & fr & Er & Ir & Cr & Pr & Dr & Kr).
  assert (Na : In a (nodes m1)) by (unfold nodes; apply in_or_app; left; apply find_name_in in Ga; [apply in_map_iff; exists (sa, a); auto|exact (ts_names _ _ Ts)]).
  destruct (ts_parent _ _ Ts a Na) as (c & p & cp & C & P & Ip & _); [intros E; congruence|]. assert (p = q) as -> by congruence.
  assert (Iq : In q (m_relationships m1)).
  { unfold nodes in Ip. apply in_app_or in Ip. destruct Ip as [Ip|Ip]; [|exact Ip]. exfalso. apply in_map_iff in Ip. destruct Ip as ((s & j) & E & I). cbn in E. subst j. destruct (ts_stored _ _ Ts s q I) as (f & F & _). unfold feature_at in F. rewrite Cq in F. cbn in F. rewrite Dq in F. discriminate. }
  destruct (ts_parent _ _ Ts q Ip) as (c' & p & cp' & C' & P' & _); [intros E; congruence|]. assert (c' = cq) as -> by congruence.
  assert (Go : group_of h1 m1 p k) by (exists q, cq; auto). destruct (group_parent h1 m1 t1 R1 k p Go) as (g & Sg). pose proof (stored_get h1 m1 t1 R1 p g Sg) as Gp. exists p, (f_name g). split; [exact Gp|].
  split; eapply (hangs_above h1 m1 t1 R1 _ p (Some k)); [|exact Gp| |exact Gp]; [exists ca|exists cb]; (split; [assumption|]); exists q, cq; auto.
Qed.

Lemma boolean_again e : all_resolved m -> (boolean_back h1 m1 e <-> boolean_back h m e).
Proof.
  intros Rs. split.
  - intros [(P & S1)|[X|X]].
    + exact (stated_pair e P S1).
    + destruct X as (a & b & a1 & b1 & -> & Ga1 & Gb1 & N & To). destruct (proj2 (back_names _ _ _ _ Mb _) (ex_intro _ _ Ga1)) as (i & Ga). destruct (proj2 (back_names _ _ _ _ Mb _) (ex_intro _ _ Gb1)) as (j & Gb).
      assert (Nij : i <> j) by (intros ->; rewrite (same_name h m t R _ _ j Ga Gb) in Ga1; congruence).
      destruct (group_above a1 b1 (T a) (T b) Ga1 Gb1 To) as (p1 & s & Gp1 & Aa & Ab). destruct (proj2 (back_names _ _ _ _ Mb _) (ex_intro _ _ Gp1)) as (p & Gp).
      destruct (together_group h1 m1 t1 R1 a1 b1 _ _ p1 Ga1 Gb1 To Aa) as (k & Gk & _). destruct (group_apart s p p1 k Gp Gp1 Gk) as ((_ & Ap) & _).
      assert (Pa : parent_named h m (T a) s) by (apply (mb_parents _ _ _ _ Mb); exists a1, p1; auto). assert (Pb : parent_named h m (T b) s) by (apply (mb_parents _ _ _ _ Mb); exists b1, p1; auto).
      assert (Ca : child_in h m p i) by (apply (child_name h m p i s (names_data h m t R) Gp); eauto). assert (Cb : child_in h m p j) by (apply (child_name h m p j s (names_data h m t R) Gp); eauto).
      destruct (Ap i Ca) as (_ & E). destruct (E j Cb (not_eq_sym Nij)) as [T0|(c & I & Ec)].
      * right. left. exists a, b, i, j. auto.
      * left. split; [eexists _, _, _; split; [right|]; reflexivity|]. exists c. split; [exact I|]. rewrite Ec. pose proof (exclusion_spelled h m t (T a) (T b) i j R Ga Gb) as Y. rewrite !U_T in Y. exact Y.
    + destruct X as (c & -> & Np & S1). apply (mb_boolean _ _ _ _ Mb) in S1. pose proof S1 as S2. destruct S1 as [(P & _)|[X|X]]; [contradiction| |].
      * destruct X as (a & b & i & j & -> & _). destruct Np. eexists _, _, _. split; [right|]; reflexivity.
      * destruct X as (c0 & -> & Np0 & S0). rewrite implies_twice. right. right. exists c0. auto.
  - intros B. pose proof (proj2 (mb_boolean _ _ _ _ Mb e) B) as S1. destruct (pair_dec e) as [P|Np].
    + left. split; [exact P|]. destruct S1 as (c & I & Sp). exists c. split; [|exact Sp]. unfold all_constraints. rewrite in_app_iff. auto.
    + right. right. exists e. split; [|auto]. destruct B as [(P & _)|[X|X]]; [contradiction| |].
      * destruct X as (a & b & i & j & -> & _). destruct Np. eexists _, _, _. split; [right|]; reflexivity.
      * destruct X as (c0 & -> & _). symmetry. apply implies_twice.
Qed.
End Trip.
