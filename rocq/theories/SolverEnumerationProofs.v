(** Enumerating the configurations. *)
From Coq Require Import List ZArith Arith Bool Ascii String Permutation Lia.
From Coq Require Import ZifyBool.
From Verif Require Import Text TextProofs LlvmInt NumSpec ConstraintModel ConstraintSpec SourceRangeModel StepFunctionModel ConfigurationModel ConfigurationSpec ConfigurationProofs
  FeatureTreeModel FeatureTreeSpec FeatureTransactionModel SolverModel SolverSpec SolverLoadProofs.
Import ListNotations.
Local Open Scope list_scope.

(** ** The texts of values *)
Lemma magnitude_unique t v w : magnitude t v -> magnitude t w -> v = w.
Proof. rewrite !magnitude_spec. destruct (auto_radix t) as [r ds]. intros (_ & A) (_ & B). congruence. Qed.

Lemma natural_text z : (0 <= z)%Z -> as_string (convert (print_Z z)) = print_Z z.
Proof.
  intros P. pose proof (convert_typed (print_Z z)) as H. pose proof (print_Z_not_bool z) as NB.
  inversion H as [E|u B N E|u y B L E|u B L E]; subst.
  - exfalso. apply NB. rewrite <- E. left. reflexivity.
  - exfalso. exact (NB B).
  - cbn. f_equal. destruct L as (_ & [(v & M & ->)|(r & v & E' & _)]).
    + rewrite print_Z_nonneg in M by exact P. rewrite (magnitude_unique _ _ _ M (print_N_magnitude _)). lia.
    + exfalso. rewrite print_Z_nonneg in E' by exact P. pose proof (print_N_digits (Z.to_N z)) as D. rewrite E' in D. discriminate.
  - reflexivity.
Qed.
Lemma value_text_kept a n t : as_string (convert (value_text a n t)) = value_text a n t.
Proof.
  destruct t; cbn [value_text]; [destruct (a_bool a n); reflexivity|]. destruct (a_int a n <? 0)%Z eqn:E; [|apply natural_text; lia].
  assert (H : convert (T "(- " ++ print_Z (- a_int a n) ++ T ")") = VStr (T "(- " ++ print_Z (- a_int a n) ++ T ")")).
  { apply convert_spec. constructor.
    - intros [B|B]; discriminate.
    - intros z (_ & [(v & M & _)|(r & v & E2 & _)]); [|discriminate]. inversion M; subst; discriminate. }
  rewrite H. reflexivity.
Qed.
Lemma value_text_shown a n t : shown a n t (value_text a n t).
Proof.
  destruct t; cbn; [reflexivity|]. destruct (a_int a n <? 0)%Z eqn:E; [right|left]; (split; [lia|reflexivity]).
Qed.
Lemma shown_fun a n t s s' : shown a n t s -> shown a n t s' -> s = s'.
Proof. destruct t; cbn; [congruence|]. intros [(A & ->)|(A & ->)] [(B & ->)|(B & ->)]; try lia; reflexivity. Qed.
Definition value (a : assignment) (v : text * sort) : sval :=
  match snd v with SBool => Truth (a_bool a (fst v)) | SInt => Number (a_int a (fst v)) end.
Lemma shown_same a b n t s : shown a n t s -> (shown b n t s <-> value a (n, t) = value b (n, t)).
Proof.
  intros Sa. split.
  - intros Sb. destruct t; cbn in *.
    + f_equal. destruct (a_bool a n), (a_bool b n); congruence || (rewrite Sa in Sb; discriminate).
    + assert (Pn : forall z z', (0 <= z)%Z -> (0 <= z')%Z -> print_Z z = print_Z z' -> z = z').
      { intros z z' A B E. rewrite !print_Z_nonneg in E by assumption. apply print_N_inj in E. lia. }
      assert (Np : forall z r, (0 <= z)%Z -> print_Z z = T "(- " ++ r -> False).
      { intros z r A E. rewrite print_Z_nonneg in E by assumption. pose proof (print_N_digits (Z.to_N z)) as D. rewrite E in D. discriminate. }
      f_equal. destruct Sa as [(A & ->)|(A & ->)], Sb as [(B & E)|(B & E)].
      * auto.
      * exfalso. exact (Np _ _ A E).
      * exfalso. exact (Np _ _ B (eq_sym E)).
      * injection E as E. apply app_inv_tail in E. apply Pn in E; lia.
  - intros E. destruct t; cbn in *; injection E as <-; exact Sa.
Qed.

Lemma configuration_shows vs a : NoDup (map fst vs) -> shows vs (configuration vs a) a.
Proof.
  intros D. unfold configuration. set (ps := map (fun v => (fst v, value_text a (fst v) (snd v))) vs).
  assert (Dn : map fst ps = map fst vs) by (unfold ps; rewrite map_map; reflexivity). split.
  - intros n t I. exists (value_text a n t). split; [|apply value_text_shown]. apply lookup_spec. exists (value_text a n t), (convert (value_text a n t)).
    split; [|split; [apply convert_typed|symmetry; apply value_text_kept]].
    apply in_split in I. destruct I as (x & y & E). exists (map (fun v => (fst v, value_text a (fst v) (snd v))) x), (map (fun v => (fst v, value_text a (fst v) (snd v))) y).
    split; [unfold ps; rewrite E, map_app; reflexivity|]. rewrite map_map. cbn. rewrite E, map_app in D. cbn in D. apply NoDup_remove_2 in D. intros X. apply D, in_or_app. auto.
  - intros n s E. assert (In n (map fst vs)) as I.
    { rewrite <- Dn. destruct (in_dec (list_eq_dec ascii_dec) n (map fst ps)) as [I|N]; [exact I|]. apply lookup_none in N. congruence. }
    apply in_map_iff in I. destruct I as ((n' & t) & <- & I). exists t. exact I.
Qed.
Lemma shows_same vs c a b : shows vs c a -> same_values vs a b -> shows vs c b.
Proof.
  intros (A & B) E. split; [|exact B]. intros n t I. destruct (A n t I) as (s & O & Sh). exists s. split; [exact O|].
  apply (shown_same a b n t s Sh). specialize (E n t I). unfold value. cbn. destruct t; congruence.
Qed.
Lemma shows_values vs c a b : shows vs c a -> shows vs c b -> same_values vs a b.
Proof.
  intros (A & _) (B & _) n t I. destruct (A n t I) as (s & O & Sh). destruct (B n t I) as (s' & O' & Sh'). assert (s' = s) as -> by congruence.
  apply (shown_same a b n t s Sh) in Sh'. unfold value in Sh'. cbn in Sh'. destruct t; congruence.
Qed.
Lemma shows_options vs c d a : shows vs c a -> shows vs d a -> forall n, option_value c n = option_value d n.
Proof.
  intros (A & A') (B & B') n. destruct (option_value c n) as [s|] eqn:E.
  - destruct (A' n s E) as (t & I). destruct (A n t I) as (s1 & O1 & S1), (B n t I) as (s2 & O2 & S2). rewrite O2. f_equal.
    assert (s1 = s) as -> by congruence. exact (shown_fun _ _ _ _ _ S1 S2).
  - destruct (option_value d n) as [s|] eqn:E'; [|reflexivity]. destruct (B' n s E') as (t & I). destruct (A n t I) as (s1 & O1 & _). congruence.
Qed.

(** ** Exclusion *)
Lemma same_values_dec vs a b : {same_values vs a b} + {~ same_values vs a b}.
Proof.
  induction vs as [|[n t] vs IH].
  - left. intros n t [].
  - destruct IH as [Y|N]; [|right; intros H; apply N; intros m u I; apply H; right; exact I].
    assert (X : {match t with SBool => a_bool a n = a_bool b n | SInt => a_int a n = a_int b n end} + {~ match t with SBool => a_bool a n = a_bool b n | SInt => a_int a n = a_int b n end}).
    { destruct t; [apply Bool.bool_dec|apply Z.eq_dec]. }
    destruct X as [X|X].
    + left. intros m u [E|I]; [injection E as <- <-; exact X|exact (Y m u I)].
    + right. intros H. apply X. apply (H n t). left. reflexivity.
Qed.
Lemma exclusion_excludes vs a : excludes vs a (exclusion vs a).
Proof.
  intros b. unfold exclusion. set (F := fun t v => _).
  assert (H : forall t, beval b (fold_left F vs t) = true <-> beval b t = true \/ ~ same_values vs a b).
  { induction vs as [|[n u] vs IH]; intros t; cbn [fold_left].
    - split; [auto|]. intros [X|X]; [exact X|]. exfalso. apply X. intros n u [].
    - rewrite IH. unfold F at 1. cbn [beval fst snd]. rewrite orb_true_iff.
      assert (X : (beval b (match u with SBool => if a_bool a n then TNot (TVar n) else TVar n | SInt => TCompare CmpNe (IVar n) (INum (a_int a n)) end) = true) <->
        ~ match u with SBool => a_bool a n = a_bool b n | SInt => a_int a n = a_int b n end).
      { destruct u; [destruct (a_bool a n) eqn:E; cbn; destruct (a_bool b n); cbn; intuition congruence|]. cbn. rewrite negb_true_iff, Z.eqb_neq. intuition congruence. }
      rewrite X. split.
      + intros [[Y|Y]|Y]; [auto|right|right]; intros Sv; apply Y; [exact (Sv n u (or_introl eq_refl))|]. intros m w I. exact (Sv m w (or_intror I)).
      + intros [Y|Y]; [auto|]. destruct (same_values_dec vs a b) as [Sv|Sv]; [|auto]. left. right. intros E. apply Y.
        intros m w [Q|I]; [injection Q as <- <-; exact E|exact (Sv m w I)]. }
  rewrite H. cbn. split; [intros [X|X]; [discriminate|exact X]|auto].
Qed.

(** ** Projections *)
Definition projection (vs : list (text * sort)) (a : assignment) : list sval := map (value a) vs.
Lemma projection_same vs a b : projection vs a = projection vs b <-> same_values vs a b.
Proof.
  split.
  - intros E n t I. assert (value a (n, t) = value b (n, t)) as X.
    { unfold projection in E. clear - E I. induction vs as [|v vs IH]; [destruct I|]. cbn in E. injection E as E1 E2. destruct I as [->|I]; auto. }
    unfold value in X. cbn in X. destruct t; congruence.
  - intros H. apply map_ext_in. intros (n & t) I. specialize (H n t I). unfold value. cbn. destruct t; congruence.
Qed.

Lemma finite_projections vs (P : assignment -> Prop) :
  (forall n, In (n, SInt) vs -> exists zs, forall a, P a -> In (a_int a n) zs) ->
  exists L, forall a, P a -> In (projection vs a) L.
Proof.
  induction vs as [|[n t] vs IH]; intros B.
  - exists [[]]. intros a _. left. reflexivity.
  - destruct IH as (L & H); [intros m I; apply B; right; exact I|].
    assert (X : exists W, forall a, P a -> In (value a (n, t)) W).
    { destruct t.
      - exists [Truth true; Truth false]. intros a _. unfold value. cbn [snd fst]. destruct (a_bool a n); [left|right; left]; reflexivity.
      - destruct (B n (or_introl eq_refl)) as (zs & Z). exists (map Number zs). intros a Pa. unfold value. cbn. apply in_map. auto. }
    destruct X as (W & X). exists (flat_map (fun w => map (cons w) L) W). intros a Pa. apply in_flat_map. exists (value a (n, t)). split; [exact (X a Pa)|]. unfold projection. cbn [map]. apply in_map. exact (H a Pa).
Qed.

(** ** The loops *)
Section Loops.
Variable check : list bterm -> option assignment.
Variables (vs : list (text * sort)) (ts : list bterm).
Hypothesis D : NoDup (map fst vs).
Hypothesis Bounded : forall n, In (n, SInt) vs -> exists zs, forall a, satisfies a ts -> In (a_int a n) zs.
Hypothesis Check : decides check vs ts.

(** Solutions found so far. *)
Definition found (l : list assignment) : Prop :=
  (forall a, In a l -> satisfies a ts) /\ NoDup (map (projection vs) l).
Definition complete (l : list assignment) : Prop := forall a, satisfies a ts -> exists b, In b l /\ same_values vs b a.
Definition state (l : list assignment) (cur : option assignment) : solver := Solver vs (ts ++ map (exclusion vs) l) cur.

Lemma check_next l cur : found l ->
  (get_next check (state l cur) = (state l cur, inr Unsat) /\ complete l) \/
  exists a, get_next check (state l cur) = (state (l ++ [a]) (Some a), inl (configuration vs a)) /\ found (l ++ [a]).
Proof.
  intros (F & N). unfold get_next, state. cbn [s_asserted s_vars]. pose proof (Check (map (exclusion vs) l)) as C.
  destruct (check (ts ++ map (exclusion vs) l)) as [a|].
  - right. exists a. split.
    + rewrite map_app, app_assoc. reflexivity.
    + assert (Sa : satisfies a (ts ++ map (exclusion vs) l)).
      { apply C. intros u I. apply in_map_iff in I. destruct I as (b & <- & _). exists b. apply exclusion_excludes. }
      apply satisfies_app in Sa. destruct Sa as (Sa & Se). split.
      * intros b I. apply in_app_or in I. destruct I as [I|[<-|[]]]; auto.
      * rewrite map_app. cbn. apply NoDup_snoc; [exact N|]. intros X. apply in_map_iff in X. destruct X as (b & E & I).
        apply projection_same in E. specialize (Se (exclusion vs b) (in_map _ _ _ I)). apply exclusion_excludes in Se. contradiction.
  - left. split; [reflexivity|]. intros a Sa.
    assert (C' : forall a, ~ satisfies a (ts ++ map (exclusion vs) l)).
    { apply C. intros u I. apply in_map_iff in I. destruct I as (b & <- & _). exists b. apply exclusion_excludes. }
    specialize (C' a). rewrite satisfies_app in C'.
    assert (X : {b | In b l /\ same_values vs b a} + {forall b, In b l -> ~ same_values vs b a}).
    { clear - l. induction l as [|b l IH]; [right; intros b []|]. destruct (same_values_dec vs b a) as [Y|Y]; [left; exists b; split; [left; reflexivity|exact Y]|].
      destruct IH as [(c & I & Z)|Z]; [left; exists c; split; [right; exact I|exact Z]|right]. intros c [<-|I]; auto. }
    destruct X as [(b & X)|X]; [eauto|]. exfalso. apply C'. split; [exact Sa|]. intros u I. apply in_map_iff in I. destruct I as (b & <- & I).
    apply exclusion_excludes. auto.
Qed.

Lemma found_bound : exists k, forall l, found l -> List.length l <= k.
Proof.
  destruct (finite_projections vs (fun a => satisfies a ts) Bounded) as (L & H). exists (List.length L). intros l (F & N).
  rewrite <- (map_length (projection vs) l). apply NoDup_incl_length; [exact N|]. intros x I. apply in_map_iff in I. destruct I as (a & <- & I). auto.
Qed.

Lemma all_loop_run k : (forall l, found l -> List.length l <= k) -> forall fuel l a,
  found (l ++ [a]) -> k <= fuel + List.length l ->
  exists l', all_loop check fuel (state (l ++ [a]) (Some a)) (map (configuration vs) l) = Some (inl (map (configuration vs) (l ++ [a] ++ l'))) /\
    found (l ++ [a] ++ l') /\ complete (l ++ [a] ++ l').
Proof.
  intros Bk. induction fuel as [|fuel IH]; intros l a F Le.
  - exfalso. specialize (Bk _ F). rewrite app_length in Bk. cbn in Bk, Le. lia.
  - cbn [all_loop get_current state s_model s_vars]. fold (state (l ++ [a]) (Some a)). destruct (check_next (l ++ [a]) (Some a) F) as [(E & C)|(b & E & F')]; rewrite E.
    + exists []. cbn [app]. rewrite map_app. split; [reflexivity|]. split; assumption.
    + replace (map (configuration vs) l ++ [configuration vs a]) with (map (configuration vs) (l ++ [a])) by (rewrite map_app; reflexivity).
      destruct (IH (l ++ [a]) b F') as (l' & E' & X); [rewrite app_length; cbn; lia|]. exists (b :: l'). rewrite E'.
      replace (l ++ [a] ++ b :: l') with ((l ++ [a]) ++ [b] ++ l') by (rewrite <- app_assoc; reflexivity). split; [reflexivity|exact X].
Qed.

(** All solutions, starting without a current one. *)
Lemma get_all_run : exists N, forall fuel, N <= fuel ->
  (get_all check fuel (Solver vs ts None) = Some (inr Unsat) /\ complete []) \/
  exists a l, get_all check fuel (Solver vs ts None) = Some (inl (map (configuration vs) (a :: l))) /\ found (a :: l) /\ complete (a :: l).
Proof.
  destruct found_bound as (k & Bk). exists (S k). intros fuel Le. destruct fuel as [|fuel]; [lia|].
  assert (F0 : found []) by (split; [intros a []|constructor]).
  assert (E0 : Solver vs ts None = state [] None) by (unfold state; cbn; rewrite app_nil_r; reflexivity). rewrite E0.
  unfold get_all. cbn [all_loop get_current state s_model]. fold (state [] None).
  destruct (check_next [] None F0) as [(E & C)|(a & E & F)]; rewrite E; [left; split; [reflexivity|exact C]|right].
  cbn [app] in *. destruct (check_next [a] (Some a) F) as [(E1 & C1)|(b & E1 & F1)]; rewrite E1.
  - exists a, []. split; [reflexivity|]. split; assumption.
  - destruct (all_loop_run k Bk fuel [a] b F1) as (l' & E' & F' & C'); [cbn; lia|]. exists a, (b :: l'). cbn [map app] in *. rewrite E'. split; [reflexivity|]. split; assumption.
Qed.

Lemma n_loop_run n k : (forall l, found l -> List.length l <= k) -> forall fuel l a,
  found (l ++ [a]) -> k <= fuel + List.length l -> List.length l < n ->
  exists l', n_loop check fuel n (state (l ++ [a]) (Some a)) (map (configuration vs) (rev l)) = Some (map (configuration vs) (rev (l ++ [a] ++ l'))) /\
    found (l ++ [a] ++ l') /\ (List.length (l ++ [a] ++ l') = n \/ List.length (l ++ [a] ++ l') < n /\ complete (l ++ [a] ++ l')).
Proof.
  intros Bk. induction fuel as [|fuel IH]; intros l a F Le Ln.
  - exfalso. specialize (Bk _ F). rewrite app_length in Bk. cbn in Bk, Le. lia.
  - cbn [n_loop get_current state s_model s_vars]. fold (state (l ++ [a]) (Some a)). cbn [List.length]. rewrite map_length, rev_length.
    destruct (Nat.eqb_spec (S (List.length l)) n) as [En|En].
    + exists []. cbn [app]. rewrite rev_app_distr. split; [reflexivity|]. split; [exact F|left]. rewrite app_length. cbn. lia.
    + destruct (check_next (l ++ [a]) (Some a) F) as [(E & C)|(b & E & F')]; rewrite E.
      * exists []. cbn [app]. rewrite rev_app_distr. split; [reflexivity|]. split; [exact F|right]. rewrite app_length. cbn. split; [lia|exact C].
      * replace (configuration vs a :: map (configuration vs) (rev l)) with (map (configuration vs) (rev (l ++ [a]))) by (rewrite rev_app_distr; reflexivity).
        destruct (IH (l ++ [a]) b F') as (l' & E' & X); [rewrite app_length; cbn; lia|rewrite app_length; cbn; lia|]. exists (b :: l'). rewrite E'.
        replace (l ++ [a] ++ b :: l') with ((l ++ [a]) ++ [b] ++ l') by (rewrite <- app_assoc; reflexivity). split; [reflexivity|exact X].
Qed.

Lemma get_n_run n : exists N, forall fuel, N <= fuel -> exists l,
  get_n check fuel n (Solver vs ts None) = Some (map (configuration vs) (rev l)) /\ found l /\
  (List.length l = n \/ List.length l < n /\ complete l).
Proof.
  destruct found_bound as (k & Bk). exists (S k). intros fuel Le.
  assert (F0 : found []) by (split; [intros a []|constructor]).
  assert (E0 : Solver vs ts None = state [] None) by (unfold state; cbn; rewrite app_nil_r; reflexivity). rewrite E0.
  unfold get_n. destruct (Nat.eqb_spec n 0) as [->|Nn]; [exists []; split; [reflexivity|]; split; [exact F0|left; reflexivity]|].
  destruct fuel as [|fuel]; [lia|]. cbn [n_loop get_current state s_model]. fold (state [] None).
  destruct (check_next [] None F0) as [(E & C)|(a & E & F)]; rewrite E.
  - cbn [List.length]. replace (0 =? n) with false by lia.
    destruct (check_next [] None F0) as [(E1 & C1)|(b & E1 & F1)]; [rewrite E1|rewrite E in E1; discriminate].
    exists []. split; [reflexivity|]. split; [exact F0|right]. cbn. split; [lia|exact C].
  - cbn [app List.length] in *. destruct (Nat.eqb_spec 1 n) as [<-|N1].
    + exists [a]. split; [reflexivity|]. split; [exact F|left; reflexivity].
    + destruct (check_next [a] (Some a) F) as [(E1 & C1)|(b & E1 & F1)]; rewrite E1.
      * exists [a]. split; [reflexivity|]. split; [exact F|right]. cbn. split; [lia|exact C1].
      * destruct (n_loop_run n k Bk fuel [a] b F1) as (l' & E' & X); [cbn; lia|cbn; lia|]. exists (a :: b :: l'). cbn [map rev app List.length] in *.
        rewrite E'. split; [reflexivity|exact X].
Qed.

(** What the lists show. *)
Lemma found_lists l : found l -> lists_solutions vs ts (map (configuration vs) l).
Proof.
  intros (F & N). split.
  - intros c I. apply in_map_iff in I. destruct I as (a & <- & I). exists a. split; [auto|apply configuration_shows; exact D].
  - intros i j c d Ei Ej Nij. rewrite nth_error_map in Ei, Ej. destruct (nth_error l i) as [a|] eqn:Ai; [|discriminate]. destruct (nth_error l j) as [b|] eqn:Bj; [|discriminate].
    cbn in Ei, Ej. injection Ei as <-. injection Ej as <-.
    destruct (configuration_shows vs a D) as (Ha & _). destruct (configuration_shows vs b D) as (Hb & _).
    destruct (same_values_dec vs a b) as [Sv|Sv].
    + exfalso. apply Nij. apply projection_same in Sv. apply (proj1 (NoDup_nth_error (map (projection vs) l)) N).
      * rewrite map_length. apply nth_error_Some. congruence.
      * rewrite !nth_error_map, Ai, Bj. cbn. congruence.
    + assert (X : exists n t, In (n, t) vs /\ value a (n, t) <> value b (n, t)).
      { clear - Sv. rewrite <- projection_same in Sv. unfold projection in Sv. induction vs as [|[n t] ws IH]; [exfalso; apply Sv; reflexivity|]. cbn in Sv.
        assert (Q : {value a (n, t) = value b (n, t)} + {value a (n, t) <> value b (n, t)}) by (repeat decide equality).
        destruct Q as [Q|Q]; [|exists n, t; split; [left; reflexivity|exact Q]]. destruct IH as (n' & t' & I & Y); [intros E; apply Sv; congruence|]. exists n', t'. split; [right; exact I|exact Y]. }
      destruct X as (n & t & I & X). exists n. destruct (Ha n t I) as (s & Oa & Sa). destruct (Hb n t I) as (s' & Ob & Sb). rewrite Oa, Ob. intros E. injection E as ->.
      apply X. apply (shown_same a b n t s' Sa). exact Sb.
Qed.
Lemma complete_lists l : found l -> complete l -> lists_all_solutions vs ts (map (configuration vs) l).
Proof.
  intros F C. split; [apply found_lists; exact F|]. intros a Sa. destruct (C a Sa) as (b & I & E). exists (configuration vs b). split; [apply in_map; exact I|].
  apply (shows_same vs _ b a); [apply configuration_shows; exact D|exact E].
Qed.
Lemma found_rev l : found l -> found (rev l).
Proof.
  intros (F & N). split; [intros a I; apply F; apply in_rev; exact I|]. rewrite map_rev. apply NoDup_rev. exact N.
Qed.
Lemma complete_rev l : complete l -> complete (rev l).
Proof. intros C a Sa. destruct (C a Sa) as (b & I & E). exists b. split; [apply -> in_rev; exact I|exact E]. Qed.
End Loops.

Lemma forall2_length {A B} (P : A -> B -> Prop) l k : Forall2 P l k -> List.length l = List.length k.
Proof. induction 1; cbn; congruence. Qed.

(** Lists of solutions are no longer than lists of all solutions. *)
Lemma solutions_shown vs ts l : lists_solutions vs ts l -> exists ps,
  Forall2 (fun c p => exists a, satisfies a ts /\ shows vs c a /\ p = projection vs a) l ps /\ NoDup ps.
Proof.
  intros (A & B). assert (X : exists ps, Forall2 (fun c p => exists a, satisfies a ts /\ shows vs c a /\ p = projection vs a) l ps).
  { clear B. induction l as [|c l IH]; [exists []; constructor|]. destruct IH as (ps & F); [intros d I; apply A; right; exact I|].
    destruct (A c (or_introl eq_refl)) as (a & Sa & Sh). exists (projection vs a :: ps). constructor; [eauto|exact F]. }
  destruct X as (ps & F). exists ps. split; [exact F|]. apply NoDup_nth_error. intros i j Li E.
  destruct (Nat.eq_dec i j) as [Y|N]; [exact Y|exfalso].
  assert (G : forall i p, nth_error ps i = Some p -> exists c a, nth_error l i = Some c /\ satisfies a ts /\ shows vs c a /\ p = projection vs a).
  { clear - F. induction F as [|c p l ps H _ IH]; intros [|i] q E; try discriminate; cbn in *; [|eauto]. injection E as <-. destruct H as (a & H). eauto. }
  destruct (nth_error ps i) as [p|] eqn:Ei; [|apply nth_error_None in Ei; lia]. symmetry in E.
  destruct (G i p Ei) as (c & a & Ec & _ & Sc & ->). destruct (G j _ E) as (d & b & Ed & _ & Sd & Ep). destruct (B i j c d Ec Ed N) as (n & X). apply X.
  apply projection_same in Ep. apply (shows_options vs c d b); [|exact Sd]. exact (shows_same vs c a b Sc Ep).
Qed.
Lemma solutions_length vs ts l all : lists_solutions vs ts l -> lists_all_solutions vs ts all -> List.length l <= List.length all.
Proof.
  intros Ll (La & C). destruct (solutions_shown vs ts l Ll) as (ps & Fp & Np). destruct (solutions_shown vs ts all La) as (qs & Fq & _).
  rewrite (forall2_length _ _ _ Fp), (forall2_length _ _ _ Fq). apply NoDup_incl_length; [exact Np|]. intros p I.
  assert (exists a, satisfies a ts /\ p = projection vs a) as (a & Sa & ->).
  { clear - Fp I. induction Fp as [|c q l ps H _ IH]; [destruct I|]. destruct I as [<-|I]; [destruct H as (a & X & _ & Y); eauto|auto]. }
  destruct (C a Sa) as (c & Ic & Sc). clear - Fq Ic Sc. induction Fq as [|d q l qs H _ IH]; [destruct Ic|]. destruct Ic as [->|Ic]; [|right; auto].
  left. destruct H as (b & _ & Sb & ->). apply projection_same. exact (shows_values vs c b a Sb Sc).
Qed.
Lemma all_solutions_length vs ts l all : lists_all_solutions vs ts l -> lists_all_solutions vs ts all -> List.length l = List.length all.
Proof. intros A B. apply Nat.le_antisymm; eapply solutions_length; eauto; apply A || apply B. Qed.

(** ** Reached solvers *)
Record built (s : solver) : Prop := Built {
  bu_model : s_model s = None;
  bu_names : NoDup (map fst (s_vars s));
  bu_values : forall n, In (n, SInt) (s_vars s) -> exists zs, forall a, satisfies a (s_asserted s) -> In (a_int a n) zs
}.
Lemma built_assert s t : built s -> built (assert_term s t).
Proof.
  intros [A B C]. constructor; [exact A|exact B|]. intros n I. destruct (C n I) as (zs & H). exists zs. intros a Sa. apply H. cbn in Sa. apply satisfies_app in Sa. apply Sa.
Qed.
Lemma built_bool s n : built s -> known s n = false -> built (add_option s n SBool).
Proof.
  intros [A B C] K. constructor; [exact A| |].
  - cbn. rewrite map_app. cbn. apply NoDup_snoc; [exact B|]. apply sort_of_none. unfold known in K. destruct (sort_of (s_vars s) n); [discriminate|reflexivity].
  - cbn. intros m I. apply in_app_or in I. destruct I as [I|[I|[]]]; [auto|discriminate].
Qed.
Lemma built_values s n zs : built s -> known s n = false -> built (assert_term (add_option s n SInt) (one_of n zs)).
Proof.
  intros [A B C] K. constructor; [exact A| |].
  - cbn. rewrite map_app. cbn. apply NoDup_snoc; [exact B|]. apply sort_of_none. unfold known in K. destruct (sort_of (s_vars s) n); [discriminate|reflexivity].
  - cbn. intros m I. apply in_app_or in I. destruct I as [I|[I|[]]].
    + destruct (C m I) as (ys & H). exists ys. intros a Sa. apply satisfies_app in Sa. apply H, Sa.
    + injection I as <-. exists zs. intros a Sa. apply satisfies_app in Sa. apply one_of_eval. apply (proj2 Sa). left. reflexivity.
Qed.
Lemma built_add_values n zs s s' e : built s -> add_values n zs s = Some (s', e) -> built s'.
Proof.
  unfold add_values. destruct (known s n) eqn:K; intros B E; injection E as <- _; [exact B|apply built_values; assumption].
Qed.
Lemma built_call fuel c s s' e : built s -> solver_call fuel c s = Some (s', e) -> built s'.
Proof.
  intros B. destruct c as [n|n zs|h i g|h r|h x|h x k r]; cbn [solver_call].
  - unfold add_name. destruct (known s n) eqn:K; intros E; injection E as <- _; [exact B|apply built_bool; assumption].
  - apply built_add_values. exact B.
  - unfold add_feature. destruct (feature_at h i) as [f|]; cbn [bind]; [|discriminate]. destruct (parent_feature h i) as [q|]; cbn [bind]; [|discriminate].
    destruct (match q with None => Some true | Some p => let* n := name_at h p in Some (known s n) end) as [[]|]; cbn [bind negb]; [|intros E; injection E as <- _; exact B|discriminate].
    destruct (known s (f_name f)) eqn:K; [intros E; injection E as <- _; exact B|]. destruct (f_kind f) as [|[lo hi|zs] step| |].
    + destruct q as [p|]; cbn [bind]; [|discriminate]. destruct (name_at h p) as [n|]; cbn [bind]; [|discriminate].
      destruct (bool_var (add_option s (f_name f) SBool) n) as [v|]; cbn [bind]; [|discriminate]. intros E. injection E as <- _.
      destruct (negb g && negb (f_optional f)); repeat apply built_assert; apply built_bool; assumption.
    + destruct (expand fuel step lo hi); try discriminate. apply built_add_values. exact B.
    + apply built_add_values. exact B.
    + intros E. injection E as <- _. apply built_assert, built_bool; assumption.
    + intros E. injection E as <- _. exact B.
  - unfold add_relationship. destruct (h_cells h r) as [c|]; cbn [bind]; [|discriminate]. destruct (n_parent c) as [p|]; cbn [bind]; [|discriminate].
    destruct (name_at h p) as [n|]; cbn [bind]; [|discriminate]. destruct (map_option (name_at h) (n_edges c)) as [ns|]; cbn [bind]; [|discriminate].
    destruct (n_data c) as [f|[]]; [discriminate| |].
    + destruct ns; [discriminate|]. intros E. injection E as <- _. apply built_assert. exact B.
    + intros E. injection E as <- _. apply built_assert. exact B.
  - unfold add_constraint, add_encoded. destruct (encode h false x (TConst false)) as [[[b|z] vc]|]; cbn [bind]; try discriminate. intros E. injection E as <- _. apply built_assert. exact B.
  - unfold add_mixed, add_encoded. destruct (encode h true x (TConst false)) as [[[b|z] vc]|]; cbn [bind]; try discriminate. intros E. injection E as <- _. apply built_assert. exact B.
Qed.
Lemma reached_built s : reached s -> built s.
Proof.
  induction 1 as [|s fuel c s' e _ IH E]; [|exact (built_call fuel c s s' e IH E)].
  constructor; [reflexivity|constructor|intros n []].
Qed.
