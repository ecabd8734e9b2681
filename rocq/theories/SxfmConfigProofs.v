(** The configurations of models read from SXFM texts. *)
From Coq Require Import List ZArith NArith Arith Bool Ascii String Permutation Lia.
From Verif Require Import Text TextProofs LlvmInt ConstraintModel ConstraintSpec ConstraintParserModel SourceRangeModel FeatureTreeModel FeatureTreeSpec FeatureTransactionModel
  FeatureEditSpec FeatureTransactionSpec FeatureBuildSpec FeatureBuildFinal SxfmModel SxfmSpec SxfmLineProofs SxfmTreeProofs SxfmTreeFinal SxfmFormulaSpec SxfmFormulaProofs SxfmBuildProofs SxfmFinal
  XmlModel XmlSpec ConfigurationModel SolverModel SolverSpec SolverLoadProofs DescribedSpec DescribedProofs DescribedFinal SxfmConfigSpec.
Import ListNotations.
Local Open Scope string_scope.
Local Open Scope list_scope.
Local Open Scope nat_scope.

(** ** Formulas *)
Definition formula_sym (s : sym) : Prop :=
  match s with ConstraintSpec.SName _ => True | SPre UNeg => True | SInf BAnd | SInf BOr => True | _ => False end.
Lemma spelled_formula : forall p w c, expr p w c -> Forall formula_sym w -> formula c.
Proof.
  fix IH 4. intros p w c E F. destruct E as [p w c Hu|p o wl wr l r Lv El Er].
  - revert w c Hu F. fix IHu 3. intros w c Hu F. destruct Hu as [n|s|o w c Hu|w c He].
    + inversion F as [|? ? X]. contradiction.
    + constructor.
    + inversion F as [|? ? X Y]. subst. destruct o; [contradiction|]. constructor. exact (IHu w c Hu Y).
    + inversion F as [|? ? X]. contradiction.
  - apply Forall_app in F. destruct F as (Fl & F). inversion F as [|? ? X Fr]. subst. destruct o; try contradiction; constructor; [exact (IH _ _ _ El Fl)|exact (IH _ _ _ Er Fr)|exact (IH _ _ _ El Fl)|exact (IH _ _ _ Er Fr)].
Qed.

Lemma states_formula es l c : states es l c -> formula c.
Proof.
  intros H. destruct H as [label before x r after f c Nc Ol B A Lg Sp]. refine (spelled_formula _ _ _ Sp _).
  assert (forall z, Forall formula_sym (literal_symbols f z)) as Q.
  { intros z. unfold literal_symbols. apply Forall_app. split; [destruct (lit_negated z); repeat constructor|repeat constructor]. }
  unfold formula_symbols. apply Forall_app. split; [apply Q|]. apply Forall_forall. intros y I. apply in_flat_map in I. destruct I as (z & _ & [<-|I]); [destruct (fst z); exact Logic.I|].
  exact (proj1 (Forall_forall _ _) (Q (snd z)) y I).
Qed.
Lemma stated_formulas es ls cs : stated es ls cs -> forall c, In c cs -> formula c.
Proof. intros H. induction H as [|l ls cs W H IH|l ls c cs S H IH]; intros x I; [destruct I|exact (IH x I)|]. destruct I as [<-|I]; [exact (states_formula _ _ _ S)|exact (IH x I)]. Qed.

Definition owned (c : cexpr string) : cexpr cref := cmap (fun s => Own (T s)) c.
Lemma formula_value d a c : (forall s, ~ numeric_name d s) -> formula c ->
  forall v, has_value d false a (owned c) v <-> exists b, v = Truth b /\ truth (a_bool a) c b /\ ~ negates c.
Proof.
  intros Nn F. unfold owned. induction F as [s|c F IH|l r Fl IHl Fr IHr|l r Fl IHl Fr IHr]; intros v; cbn [cmap].
  - split.
    + intros H. inversion H as [|s0 v0 N| | | |]. subst. inversion N as [X|X Y|X Y]; [exfalso; exact (Nn _ X)|discriminate Y|]. subst. exists (a_bool a (T s)). split; [reflexivity|]. split; [constructor|]. intros X'. inversion X'.
    + intros (b & -> & H & _). inversion H. subst. constructor. apply nv_truth; [apply Nn|reflexivity].
  - split.
    + intros H. inversion H as [| | |e z X| |]. subst. apply IH in X. destruct X as (b & X & _). discriminate X.
    + intros (b & _ & _ & H). exfalso. apply H. constructor.
  - split.
    + intros H. inversion H as [| | | |o l' r' x y v' L R O|o l' r' x y v' L R O]; subst.
      * apply IHl in L. apply IHr in R. destruct L as (x' & L & Tl & Nl). injection L as <-. destruct R as (y' & R & Tr & Nr). injection R as <-. cbn [truth_op] in O. injection O as <-.
        exists (x && y). split; [reflexivity|]. split; [constructor; assumption|]. intros X. inversion X; contradiction.
      * apply IHl in L. destruct L as (x' & L & _). discriminate L.
    + intros (b & -> & H & N). inversion H as [| |l' r' x y L R|]. subst. apply hv_truths with x y; [apply IHl|apply IHr|reflexivity]; (eexists; split; [reflexivity|]; split; [assumption|]); intros X; apply N; [apply negates_left|apply negates_right]; exact X.
  - split.
    + intros H. inversion H as [| | | |o l' r' x y v' L R O|o l' r' x y v' L R O]; subst.
      * apply IHl in L. apply IHr in R. destruct L as (x' & L & Tl & Nl). injection L as <-. destruct R as (y' & R & Tr & Nr). injection R as <-. cbn [truth_op] in O. injection O as <-.
        exists (x || y). split; [reflexivity|]. split; [constructor; assumption|]. intros X. inversion X; contradiction.
      * apply IHl in L. destruct L as (x' & L & _). discriminate L.
    + intros (b & -> & H & N). inversion H as [| | |l' r' x y L R]. subst. apply hv_truths with x y; [apply IHl|apply IHr|reflexivity]; (eexists; split; [reflexivity|]; split; [assumption|]); intros X; apply N; [apply negates_left|apply negates_right]; exact X.
Qed.
Lemma formula_truth sel c : formula c -> exists b, truth sel c b.
Proof.
  intros F. induction F as [s|c F (b & IH)|l r Fl (x & IHl) Fr (y & IHr)|l r Fl (x & IHl) Fr (y & IHr)]; eexists; constructor; eassumption.
Qed.

(** ** The tree *)
Section Tree.
Variables (first : entry) (rest : list entry) (tc : list bcall) (n : text) (cs : list (cexpr string)).
Let es := first :: rest.
Let ks := map (fun c => BConstraint KBoolean (owned c)) cs.
Let calls := BName n :: tc ++ ks.
Hypothesis Fr : e_mark first = Root.
Hypothesis Mr : forall x, In x rest -> e_mark x <> Root.
Hypothesis Nd : NoDup (labels es).
Hypothesis Wi : well_indented (levels es).
Hypothesis Tc : tree_calls es tc.
Hypothesis Ck : forall c, In c ks -> match c with BConstraint _ e => forall r, In r (leaves e) -> exists s, r = Own s /\ In s (labels es) | _ => False end.
Hypothesis Fo : forall c, In c cs -> formula c.
Variables (r0 : text) (rs : list text).
Hypothesis Lb : labels es = r0 :: rs.
Let d := the_decl rest r0 rs.

Lemma no_numeric s : ~ numeric_name d s.
Proof. intros (f & I & _ & K). destruct (leaf_in _ _ _ I) as (i & e & x & _ & _ & ->). discriminate K. Qed.
Lemma calls_constraints : constraints_of calls = map (fun c => (KBoolean, owned c)) cs.
Proof.
  unfold constraints_of, calls. cbn [flat_map app]. rewrite flat_map_app. assert (flat_map (fun c => match c with BConstraint k0 e0 => [(k0, e0)] | _ => [] end) tc = []) as ->.
  { assert (forall c, In c tc -> match c with BName _ | BConstraint _ _ => False | _ => True end) as Rest by (intros c I; pose proof (tc_rest _ _ Tc c I); destruct c; tauto).
    revert Rest. clear. induction tc as [|c l IH]; intros H; [reflexivity|]. cbn [flat_map]. rewrite IH by (intros x X; apply H; right; exact X). pose proof (H c (or_introl eq_refl)). destruct c; try contradiction; reflexivity. }
  unfold ks. clear. cbn [app]. induction cs as [|c l IH]; [reflexivity|]. cbn [map flat_map app]. f_equal. exact IH.
Qed.
Lemma requested_marked s k : requested calls s k <-> exists j, marked es j (Group k) /\ labelled es j s.
Proof.
  unfold requested, calls. rewrite (requests_all first rest tc ks n Ck). split.
  - intros I. apply (Permutation_in _ (tc_groups _ _ Tc)) in I. fold es in I. revert I. unfold labelled, marked. generalize (labels es) as ns. generalize es as xs. clear.
    induction xs as [|x xs IH]; intros [|y ns] I; try contradiction. cbn [group_lines] in I.
    assert (In (s, k) (group_lines xs ns) -> exists j, (exists e, nth_error (x :: xs) j = Some e /\ e_mark e = Group k) /\ nth_error (y :: ns) j = Some s) as Q.
    { intros J. destruct (IH ns J) as (j & A & B). exists (S j). split; assumption. }
    destruct (e_mark x) eqn:M; try (exact (Q I)). destruct I as [I|I]; [|exact (Q I)]. injection I as -> ->. exists 0. split; [exists x; split; [reflexivity|exact M]|reflexivity].
  - intros (j & (e & Ee & Me) & L). pose proof (group_at es (labels es) j e s Nd Ee L) as G. rewrite Me in G. exact (Permutation_in _ (Permutation_sym (tc_groups _ _ Tc)) G).
Qed.
Lemma child_below i s : labelled es (S i) s -> exists j p e, child es j (S i) s /\ labelled es j p /\ nth_error rest i = Some e /\ In (leaf_feature e s) (snd d) /\
  parent_of calls d s = p.
Proof.
  intros L. pose proof (nth_below _ _ _ L) as Li. rewrite labels_length in Li. destruct (closest_exists es (S i) Wi ltac:(lia)) as (j & C).
  assert (exists p, labelled es j p) as (p & Lj).
  { unfold labelled. destruct (nth_error (labels es) j) as [p|] eqn:E; [exists p; reflexivity|]. apply nth_error_None in E. rewrite labels_length in E. destruct C as (? & _ & _ & ? & _). lia. }
  assert (exists e, nth_error rest i = Some e) as (e & Ee).
  { destruct (nth_error rest i) as [e|] eqn:E; [exists e; reflexivity|]. apply nth_error_None in E. unfold es in Li. cbn [List.length] in Li. lia. }
  exists j, p, e. split; [split; assumption|]. split; [exact Lj|]. split; [exact Ee|]. split.
  - apply leaf_nth with i; [exact Ee|]. unfold labelled in L. rewrite Lb in L. exact L.
  - exact (edge_at first rest tc ks n Mr Nd Tc Ck (S i) j s p C L Lj _).
Qed.
Lemma declared_label f : In f (snd d) -> exists i e s, f = leaf_feature e s /\ labelled es (S i) s /\ nth_error rest i = Some e.
Proof. intros I. destruct (leaf_in _ _ _ I) as (i & e & s & E & N & ->). exists i, e, s. split; [reflexivity|]. split; [unfold labelled; rewrite Lb; exact N|exact E]. Qed.
Lemma same_label i j s : labelled es i s -> labelled es j s -> i = j.
Proof. exact (label_inj first rest Nd i j s). Qed.
Lemma child_pos i j s : child es j i s -> exists k, i = S k.
Proof. intros ((l & _ & _ & L & _) & _). exists (i - 1). lia. Qed.
Lemma below_child j p f : labelled es j p -> (below calls d p f <-> exists i e s, f = leaf_feature e s /\ nth_error rest i = Some e /\ child es j (S i) s).
Proof.
  intros L. split.
  - intros (I & E). destruct (declared_label f I) as (i & e & s & -> & Ls & Ee). exists i, e, s. split; [reflexivity|]. split; [exact Ee|].
    destruct (child_below i s Ls) as (j' & p' & e' & C & L' & _ & _ & P). unfold parent_of in P. change (f_name (leaf_feature e s)) with s in E. assert (p' = p) as -> by congruence.
    rewrite <- (same_label j' j p L' L). exact C.
  - intros (i & e & s & -> & Ee & C). destruct (child_below i s (proj2 C)) as (j' & p' & e' & C' & L' & Ee' & I & P). assert (e' = e) as -> by congruence. split; [exact I|].
    change (f_name (leaf_feature e s)) with s. unfold parent_of in P. rewrite P. assert (j' = j) as -> by exact (closest_unique _ _ _ _ (proj1 C') (proj1 C)). unfold labelled in L', L. congruence.
Qed.
Lemma labelled_entry i s : labelled es i s -> exists e, nth_error es i = Some e.
Proof. intros L. pose proof (nth_below _ _ _ L) as Li. rewrite labels_length in Li. destruct (nth_error es i) as [e|] eqn:E; [exists e; reflexivity|]. apply nth_error_None in E. lia. Qed.
Lemma member_entry i j s : child es j (S i) s -> exists e, nth_error rest i = Some e.
Proof. intros (_ & L). destruct (labelled_entry _ _ L) as (e & E). exists e. exact E. Qed.
Lemma optional_marked i e : nth_error rest i = Some e -> (optional (e_mark e) = true <-> marked es (S i) Optional).
Proof.
  intros E. split.
  - intros O. exists e. split; [exact E|]. destruct (e_mark e); try discriminate O. reflexivity.
  - intros (e' & E' & M). assert (e' = e) as -> by (unfold es in E'; cbn [nth_error] in E'; congruence). rewrite M. reflexivity.
Qed.

Theorem configures_stated a : configures calls d (requested calls) a <-> stated_configuration es cs (a_bool a) /\ forall c, In c cs -> ~ negates c.
Proof.
  assert (labelled es 0 r0) as L0 by (unfold labelled; rewrite Lb; reflexivity). split.
  - intros C. assert (forall c, In c cs -> truth (a_bool a) c true /\ ~ negates c) as Hc.
    { intros c I. assert (In (KBoolean, owned c) (constraints_of calls)) as J by (rewrite calls_constraints; apply in_map_iff; exists c; split; [reflexivity|exact I]).
      pose proof (co_constraints _ _ _ _ C _ _ J (or_introl eq_refl)) as V. apply (formula_value d a c no_numeric (Fo c I)) in V. destruct V as (b & E & V). injection E as <-. exact V. }
    split; [|intros c I; exact (proj2 (Hc c I))]. constructor.
    + intros s L. assert (s = r0) as -> by (unfold labelled in L, L0; congruence). exact (co_root _ _ _ _ C).
    + intros i j s p Hi Lj Sx. destruct (child_pos _ _ _ Hi) as (k & ->). destruct (child_below k s (proj2 Hi)) as (j' & p' & e & C' & L' & Ee & I & P).
      assert (j' = j) as -> by exact (closest_unique _ _ _ _ (proj1 C') (proj1 Hi)). assert (p' = p) as -> by (unfold labelled in L', Lj; congruence).
      pose proof (co_parent _ _ _ _ C (leaf_feature e s) I eq_refl Sx) as Q. change (f_name (leaf_feature e s)) with s in Q. rewrite P in Q. exact Q.
    + intros i j s p mk Hi Lj No (ej & Ej & Mj) Ng Sx. destruct (child_pos _ _ _ Hi) as (k & ->). destruct (child_below k s (proj2 Hi)) as (j' & p' & e & C' & L' & Ee & I & P).
      assert (j' = j) as -> by exact (closest_unique _ _ _ _ (proj1 C') (proj1 Hi)). assert (p' = p) as -> by (unfold labelled in L', Lj; congruence).
      apply (co_mandatory _ _ _ _ C (leaf_feature e s) I eq_refl).
      * cbn [leaf_feature new_feature f_optional]. destruct (optional (e_mark e)) eqn:O; [|reflexivity]. exfalso. apply No. exact (proj1 (optional_marked k e Ee) O).
      * intros kd Q. change (f_name (leaf_feature e s)) with s in Q. rewrite P in Q. apply requested_marked in Q. destruct Q as (j2 & (e2 & E2 & M2) & L2). assert (j2 = j) as -> by exact (same_label _ _ _ L2 Lj).
        apply (Ng kd). congruence.
      * change (f_name (leaf_feature e s)) with s. rewrite P. exact Sx.
    + intros j p Mj Lj Sx. assert (requested calls p RAlternative) as Q by (apply requested_marked; exists j; split; assumption).
      destruct (co_alternative _ _ _ _ C p Q Sx) as (f & B & Sf & U). apply (below_child j p f Lj) in B. destruct B as (i & e & s & -> & Ee & Hi). exists (S i), s. split; [exact Hi|]. split; [exact Sf|].
      intros i' s' Hi' Sx'. destruct (child_pos _ _ _ Hi') as (k & ->). destruct (member_entry _ _ _ Hi') as (e' & Ee'). assert (s' = s) as ->.
      { apply (U (leaf_feature e' s')); [|exact Sx']. apply (below_child j p _ Lj). exists k, e', s'. repeat split; try assumption; exact (proj1 Hi') || exact (proj2 Hi'). }
      exact (same_label _ _ _ (proj2 Hi') (proj2 Hi)).
    + intros j p Mj Lj Sx. assert (requested calls p ROr) as Q by (apply requested_marked; exists j; split; assumption).
      destruct (co_or _ _ _ _ C p Q Sx) as (f & B & Sf). apply (below_child j p f Lj) in B. destruct B as (i & e & s & -> & Ee & Hi). exists (S i), s. split; [exact Hi|exact Sf].
    + intros c I. exact (proj1 (Hc c I)).
  - intros (C & Hn). constructor.
    + exact (sc_root _ _ _ C r0 L0).
    + intros f I _ Sx. destruct (declared_label f I) as (i & e & s & -> & L & Ee). destruct (child_below i s L) as (j & p & e' & Hi & Lj & _ & _ & P).
      change (f_name (leaf_feature e s)) with s in Sx |- *. unfold selected. rewrite P. exact (sc_parent _ _ _ C _ _ _ _ Hi Lj Sx).
    + intros f I _ Of Ng Sx. destruct (declared_label f I) as (i & e & s & -> & L & Ee). destruct (child_below i s L) as (j & p & e' & Hi & Lj & _ & _ & P).
      change (f_name (leaf_feature e s)) with s in Sx, Ng |- *. rewrite P in Ng. unfold selected in Sx. rewrite P in Sx. destruct (labelled_entry _ _ Lj) as (ej & Ej).
      apply (sc_mandatory _ _ _ C (S i) j s p (e_mark ej) Hi Lj).
      * intros M. apply (optional_marked i e Ee) in M. cbn [leaf_feature new_feature f_optional] in Of. congruence.
      * exists ej. split; [exact Ej|reflexivity].
      * intros k M. apply (Ng k). apply requested_marked. exists j. split; [exists ej; split; assumption|exact Lj].
      * exact Sx.
    + intros p Q Sx. apply requested_marked in Q. destruct Q as (j & Mj & Lj). destruct (sc_alternative _ _ _ C j p Mj Lj Sx) as (i & s & Hi & Sl & U). destruct (child_pos _ _ _ Hi) as (k & ->). destruct (member_entry _ _ _ Hi) as (e & Ee).
      exists (leaf_feature e s). split; [apply (below_child j p _ Lj); exists k, e, s; split; [reflexivity|]; split; assumption|]. split; [exact Sl|].
      intros g B Sg. apply (below_child j p g Lj) in B. destruct B as (i' & e' & s' & -> & Ee' & Hi'). change (f_name (leaf_feature e' s')) with s' in Sg |- *. change (f_name (leaf_feature e s)) with s.
      pose proof (U (S i') s' Hi' Sg) as E. destruct Hi as (_ & Li). destruct Hi' as (_ & Li'). rewrite E in Li'. unfold labelled in Li, Li'. congruence.
    + intros p Q Sx. apply requested_marked in Q. destruct Q as (j & Mj & Lj). destruct (sc_or _ _ _ C j p Mj Lj Sx) as (i & s & Hi & Sl). destruct (child_pos _ _ _ Hi) as (k & ->). destruct (member_entry _ _ _ Hi) as (e & Ee).
      exists (leaf_feature e s). split; [apply (below_child j p _ Lj); exists k, e, s; split; [reflexivity|]; split; assumption|exact Sl].
    + intros f v step I K. exfalso. apply (no_numeric (f_name f)). exists f. split; [exact I|]. split; [reflexivity|]. rewrite K. reflexivity.
    + intros k e I _. rewrite calls_constraints in I. apply in_map_iff in I. destruct I as (c & E & I). injection E as <- <-. apply (formula_value d a c no_numeric (Fo c I)). exists true. split; [reflexivity|].
      split; [exact (sc_formulas _ _ _ C c I)|exact (Hn c I)].
    + intros r k e I. rewrite calls_constraints in I. apply in_map_iff in I. destruct I as (c & E & I). discriminate E.
Qed.

Lemma tree_settled : inhabited_groups es -> (forall c, In c cs -> ~ negates c) -> settled calls d (requested calls).
Proof.
  intros Ih Hn. constructor.
  - intros f I. destruct (declared_label f I) as (i & e & s & -> & _). discriminate.
  - intros f I _. apply no_numeric.
  - intros p Q. apply requested_marked in Q. destruct Q as (j & Mj & Lj). destruct (Ih j Mj) as (i & s & Hi). destruct (child_pos _ _ _ Hi) as (k & ->). destruct (member_entry _ _ _ Hi) as (e & Ee).
    exists (leaf_feature e s). apply (below_child j p _ Lj). exists k, e, s. split; [reflexivity|]. split; assumption.
  - intros f v step I K. exfalso. apply (no_numeric (f_name f)). exists f. split; [exact I|]. split; [reflexivity|]. rewrite K. reflexivity.
  - intros k e a I _. rewrite calls_constraints in I. apply in_map_iff in I. destruct I as (c & E & I). injection E as <- <-. destruct (formula_truth (a_bool a) c (Fo c I)) as (b & Tb). exists b.
    apply (formula_value d a c no_numeric (Fo c I)). exists b. split; [reflexivity|]. split; [exact Tb|exact (Hn c I)].
  - intros r k e a I. rewrite calls_constraints in I. apply in_map_iff in I. destruct I as (c & E & I). discriminate E.
  - intros k e I. rewrite calls_constraints in I. apply in_map_iff in I. destruct I as (c & E & I). injection E as <- <-. generalize (Fo c I). clear. intros F. unfold owned. induction F; cbn [cmap xor_free]; auto; repeat split; auto; discriminate.
Qed.
End Tree.
