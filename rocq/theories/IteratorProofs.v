(** Iterators move one place in the list of configurations. *)
From Coq Require Import List ZArith Arith Bool Lia.
From Coq Require Import ZifyBool.
From Verif Require Import Text FeatureTreeModel ConfigurationModel SolverModel SolverSpec SolverEnumerationProofs IteratorModel IteratorSpec.
Import ListNotations.
Local Open Scope list_scope.

Section Chain.
Variable check : list bterm -> option assignment.
Variables (vs : list (text * sort)) (ts : list bterm).
Hypothesis D : NoDup (map fst vs).
Hypothesis Bounded : forall n, In (n, SInt) vs -> exists zs, forall a, satisfies a ts -> In (a_int a n) zs.
Hypothesis Check : decides check vs ts.

(** The answers of the oracle, one after the other. *)
Definition chain (l : list assignment) : Prop :=
  forall k, k <= List.length l -> check (ts ++ map (exclusion vs) (firstn k l)) = nth_error l k.
Definition before (l : list assignment) : Prop :=
  forall k, k < List.length l -> check (ts ++ map (exclusion vs) (firstn k l)) = nth_error l k.

Lemma next_answer l : found vs ts l ->
  (check (ts ++ map (exclusion vs) l) = None /\ complete vs ts l) \/ exists a, check (ts ++ map (exclusion vs) l) = Some a /\ found vs ts (l ++ [a]).
Proof.
  intros F. destruct (check_next check vs ts Check l None F) as [(E & C)|(a & E & F')]; unfold get_next, state in E; cbn [s_asserted s_vars] in E.
  - left. split; [|exact C]. destruct (check (ts ++ map (exclusion vs) l)); [discriminate|reflexivity].
  - right. destruct (check (ts ++ map (exclusion vs) l)) as [b|]; [|discriminate]. exists b. split; [reflexivity|]. injection E as _ -> _. exact F'.
Qed.

Lemma chain_from k : (forall l, found vs ts l -> List.length l <= k) -> forall n l, found vs ts l -> before l -> k <= n + List.length l ->
  exists l', found vs ts l' /\ complete vs ts l' /\ chain l'.
Proof.
  intros Bk. induction n as [|n IH]; intros l F B Le; (destruct (next_answer l F) as [(E & C)|(a & E & F')];
    [exists l; split; [exact F|]; split; [exact C|]; intros j Lj; destruct (Nat.eq_dec j (List.length l)) as [->|N];
     [rewrite firstn_all, E; symmetry; apply nth_error_None; lia|apply B; lia]|]).
  - exfalso. specialize (Bk _ F'). rewrite app_length in Bk. cbn in Bk, Le. lia.
  - apply (IH (l ++ [a]) F'); [|rewrite app_length; cbn; lia]. intros j Lj. rewrite app_length in Lj. cbn in Lj.
    destruct (Nat.eq_dec j (List.length l)) as [->|N].
    + rewrite firstn_app, firstn_all, Nat.sub_diag, nth_error_app2, Nat.sub_diag by lia. cbn. rewrite app_nil_r. exact E.
    + rewrite firstn_app, nth_error_app1 by lia. replace (j - List.length l) with 0 by lia. cbn. rewrite app_nil_r. apply B. lia.
Qed.
Lemma chain_exists : exists l, found vs ts l /\ complete vs ts l /\ chain l.
Proof.
  destruct (found_bound vs ts Bounded) as (k & Bk). apply (chain_from k Bk k []); [split; [intros a []|constructor]|intros j L; cbn in L; lia|lia].
Qed.

Section Walk.
Variable l : list assignment.
Hypothesis Chain : chain l.
Let L := map (configuration vs) l.

(** The solver at a place. *)
Definition stands (at_ : option nat) (s : solver) : Prop :=
  match at_ with
  | None => s = state vs ts [] None
  | Some n => exists a, nth_error l n = Some a /\ s = state vs ts (firstn (S n) l) (Some a)
  end.

Lemma firstn_next {A} (x : list A) n a : nth_error x n = Some a -> firstn (S n) x = firstn n x ++ [a].
Proof. revert n. induction x as [|y x IH]; intros [|n] E; try discriminate; cbn in *; [congruence|]. f_equal. apply IH. exact E. Qed.

Lemma next_at k cur : k <= List.length l ->
  get_next check (state vs ts (firstn k l) cur) =
  match nth_error l k with
  | Some a => (state vs ts (firstn (S k) l) (Some a), inl (configuration vs a))
  | None => (state vs ts (firstn k l) cur, inr Unsat)
  end.
Proof.
  intros Le. unfold get_next. cbn [state s_asserted s_vars]. rewrite (Chain k Le). destruct (nth_error l k) as [a|] eqn:E; [|reflexivity].
  rewrite (firstn_next l k a E). unfold state. rewrite map_app, app_assoc. reflexivity.
Qed.

Lemma stands_next p s : stands (pl_at p) s ->
  snd (get_next check s) = snd (advance L p) /\ stands (pl_at (fst (advance L p))) (fst (get_next check s)) /\
  (result_bool (snd (get_next check s)) = true <-> next_place L p <> None) /\
  pl_ended (fst (advance L p)) = pl_ended p /\ pl_made (fst (advance L p)) = pl_made p.
Proof.
  intros St. unfold advance, next_place, at_place, L. rewrite map_length.
  assert (exists k cur, s = state vs ts (firstn k l) cur /\ k <= List.length l /\ k = match pl_at p with None => 0 | Some n => S n end) as (k & cur & -> & Lk & Ek).
  { destruct (pl_at p) as [n|]; cbn [stands] in St.
    - destruct St as (a & E & ->). exists (S n), (Some a). split; [reflexivity|]. split; [|reflexivity]. apply Nat.le_succ_l. apply nth_error_Some. congruence.
    - exists 0, None. split; [exact St|]. split; [lia|reflexivity]. }
  rewrite <- Ek, (next_at k cur Lk). destruct (Nat.ltb_spec k (List.length l)) as [Lt|Ge].
  - destruct (nth_error l k) as [a|] eqn:E; [|apply nth_error_None in E; lia]. cbn [fst snd move pl_at stands pl_ended pl_made]. rewrite nth_error_map, E. cbn.
    split; [reflexivity|]. split; [exists a; split; reflexivity|]. split; [split; [discriminate|reflexivity]|]. split; reflexivity.
  - assert (E : nth_error l k = None) by (apply nth_error_None; lia). rewrite E. cbn [fst snd result_bool].
    split; [reflexivity|]. split; [|split; [split; [discriminate|intros X; exfalso; apply X; reflexivity]|split; reflexivity]].
    destruct (pl_at p) as [n|]; cbn [stands] in *; [|exact St]. exact St.
Qed.

Lemma stands_look p s : stands (pl_at p) s ->
  snd (get_current check s) = snd (look L p) /\ stands (pl_at (fst (look L p))) (fst (get_current check s)) /\
  pl_ended (fst (look L p)) = pl_ended p /\ pl_made (fst (look L p)) = pl_made p.
Proof.
  intros St. unfold look, get_current. destruct (pl_at p) as [n|] eqn:Ep; cbn [stands] in St.
  - destruct St as (a & E & ->). cbn [state s_model fst snd]. unfold at_place, L. rewrite nth_error_map, E. cbn. split; [reflexivity|]. split; [|split; reflexivity].
    rewrite Ep. exists a. split; [exact E|reflexivity].
  - subst s. cbn [state s_model]. fold (state vs ts [] None). pose proof (next_at 0 None (Nat.le_0_l _)) as N. cbn [firstn] in N. rewrite N. unfold L.
    destruct l as [|a r] eqn:El; cbn [nth_error map fst snd move pl_at pl_ended pl_made].
    + split; [reflexivity|]. split; [rewrite Ep; reflexivity|split; reflexivity].
    + split; [reflexivity|]. split; [|split; reflexivity]. exists a. rewrite El. split; reflexivity.
Qed.

(** ** Programs *)
Record matches (p : place) (x : iterable) : Prop := Matches {
  ma_solver : stands (pl_at p) (it_solver x);
  ma_made : List.length (it_live x) = pl_made p;
  ma_live : forall i, i < pl_made p -> nth_error (it_live x) i = Some (negb (ended p i));
  ma_ended : forall i, In i (pl_ended p) -> i < pl_made p
}.

Lemma set_nth_length i b v : List.length (set_nth i b v) = List.length v.
Proof. revert i. induction v as [|x v IH]; intros [|i]; cbn; congruence. Qed.
Lemma set_nth_at i b v j : i < List.length v -> nth_error (set_nth i b v) j = if j =? i then Some b else nth_error v j.
Proof.
  revert i j. induction v as [|x v IH]; intros [|i] [|j] H; cbn in *; try lia; try reflexivity. rewrite IH by lia. reflexivity.
Qed.
Lemma live_usable p x i : matches p x -> (nth_error (it_live x) i = Some true <-> usable p i = true).
Proof.
  intros [_ M Lv _]. unfold usable. destruct (Nat.ltb_spec i (pl_made p)) as [Lt|Ge]; cbn [andb].
  - rewrite (Lv i Lt). split; [intros E; injection E as ->; reflexivity|intros ->; reflexivity].
  - split; [|discriminate]. intros E. exfalso. assert (i < List.length (it_live x)) by (apply nth_error_Some; congruence). lia.
Qed.
Lemma live_made p x i : matches p x -> i < pl_made p -> nth_error (it_live x) i = Some (negb (ended p i)).
Proof. intros [_ _ Lv _]. apply Lv. Qed.
Lemma made_live p x i b : matches p x -> nth_error (it_live x) i = Some b -> i < pl_made p /\ b = negb (ended p i).
Proof.
  intros [_ M Lv _] E. assert (H : i < pl_made p) by (rewrite <- M; apply nth_error_Some; congruence). split; [exact H|]. rewrite (Lv i H) in E. congruence.
Qed.
Lemma unmade p x : matches p x -> ended p (pl_made p) = false.
Proof.
  intros [_ _ _ En]. unfold ended. destruct (existsb (Nat.eqb (pl_made p)) (pl_ended p)) eqn:E; [|reflexivity].
  apply existsb_exists in E. destruct E as (i & I & Q). apply En in I. apply Nat.eqb_eq in Q. lia.
Qed.
Lemma matches_solver p x p' s : matches p x -> stands (pl_at p') s -> pl_ended p' = pl_ended p -> pl_made p' = pl_made p -> matches p' (Iterable s (it_live x)).
Proof. intros [_ M Lv En] St E1 E2. constructor; cbn [it_solver it_live]; [exact St|congruence| |]; [unfold ended|]; rewrite E1, E2; assumption. Qed.

(** One operation, from the iterators to the place and back. *)
Lemma step_to_place o x p x' e : matches p x -> iterator_step check o x = Some (x', e) -> exists p', does L o p p' e /\ matches p' x'.
Proof.
  intros Ma E. pose proof Ma as [So Md Lv En]. destruct x as [s v]. cbn [it_solver it_live] in *. destruct o as [|i|i|i|i j|i| | |]; cbn [iterator_step] in E.
  - injection E as <- <-. eexists. split; [constructor|]. constructor; cbn [it_solver it_live pl_at pl_ended pl_made].
    + exact So.
    + rewrite app_length. cbn. lia.
    + intros i Li. unfold ended. cbn [pl_ended]. fold (ended p i). destruct (Nat.eq_dec i (pl_made p)) as [->|N].
      * rewrite nth_error_app2, Md, Nat.sub_diag, (unmade _ _ Ma) by lia. reflexivity.
      * rewrite nth_error_app1 by lia. apply Lv. lia.
    + intros i I. apply En in I. lia.
  - destruct (nth_error v i) as [b|] eqn:Ei; cbn [bind] in E; [|discriminate]. injection E as <- <-. destruct (made_live p _ i b Ma Ei) as (Li & ->).
    eexists. split; [apply do_copy; exact Li|]. constructor; cbn [it_solver it_live pl_at pl_ended pl_made].
    + exact So.
    + rewrite app_length. cbn. lia.
    + intros j Lj. unfold ended at 2. cbn [pl_ended].
      assert (X : existsb (Nat.eqb j) (if ended p i then pl_made p :: pl_ended p else pl_ended p) = if j =? pl_made p then ended p i else ended p j).
      { destruct (ended p i) eqn:Ee; cbn [existsb]; fold (ended p j); destruct (Nat.eqb_spec j (pl_made p)) as [->|N]; try reflexivity. exact (unmade _ _ Ma). }
      rewrite X. destruct (Nat.eqb_spec j (pl_made p)) as [->|N].
      * rewrite nth_error_app2, Md, Nat.sub_diag by lia. reflexivity.
      * rewrite nth_error_app1 by lia. apply Lv. lia.
    + intros j I. destruct (ended p i); [destruct I as [<-|I]; [lia|]|]; apply En in I; lia.
  - destruct (nth_error v i) as [[]|] eqn:Ei; try discriminate. destruct (stands_look p s So) as (R & St & E1 & E2). destruct (get_current check s) as [s' r]. cbn [fst snd] in *.
    injection E as <- <-. exists (fst (look L p)). rewrite R. split; [constructor; apply (live_usable p _ i Ma); exact Ei|]. exact (matches_solver p _ _ s' Ma St E1 E2).
  - destruct (nth_error v i) as [[]|] eqn:Ei; try discriminate. destruct (stands_next p s So) as (R & St & Rb & E1 & E2). destruct (get_next check s) as [s' r]. cbn [fst snd] in *.
    assert (Us : usable p i = true) by (apply (live_usable p _ i Ma); exact Ei).
    injection E as <- <-. unfold advance in St, E1, E2. destruct (next_place L p) as [n|] eqn:N.
    + assert (result_bool r = true) as -> by (apply Rb; discriminate). cbn [fst] in *. exists (move p n). split; [apply do_step; assumption|]. exact (matches_solver p _ _ s' Ma St E1 E2).
    + assert (result_bool r = false) as -> by (destruct (result_bool r); [exfalso; apply (proj1 Rb eq_refl); reflexivity|reflexivity]). cbn [fst] in *.
      eexists. split; [apply do_end; assumption|].
      assert (Li : i < pl_made p) by (unfold usable in Us; destruct (Nat.ltb_spec i (pl_made p)); [assumption|discriminate]).
      constructor; cbn [it_solver it_live pl_at pl_ended pl_made].
      * exact St.
      * rewrite set_nth_length. exact Md.
      * intros j Lj. rewrite set_nth_at by lia. unfold ended. cbn [pl_ended existsb]. fold (ended p j). destruct (j =? i); [reflexivity|]. apply Lv. exact Lj.
      * intros j [<-|I]; [exact Li|apply En; exact I].
  - destruct (nth_error v i) as [a|] eqn:Ei; cbn [bind] in E; [|discriminate]. destruct (nth_error v j) as [b|] eqn:Ej; cbn [bind] in E; [|discriminate]. injection E as <- <-.
    destruct (made_live p _ i a Ma Ei) as (Li & ->). destruct (made_live p _ j b Ma Ej) as (Lj & ->). exists p. split; [|exact Ma]. constructor; [exact Li|exact Lj|].
    destruct (ended p i), (ended p j); cbn; split; congruence.
  - destruct (nth_error v i) as [a|] eqn:Ei; cbn [bind] in E; [|discriminate]. injection E as <- <-. destruct (made_live p _ i a Ma Ei) as (Li & ->). exists p. split; [|exact Ma].
    rewrite negb_involutive. constructor. exact Li.
  - destruct (stands_look p s So) as (R & St & E1 & E2). destruct (get_current check s) as [s' r]. cbn [fst snd] in *. injection E as <- <-. exists (fst (look L p)). rewrite R. split; [constructor|].
    exact (matches_solver p _ _ s' Ma St E1 E2).
  - destruct (stands_next p s So) as (R & St & _ & E1 & E2). destruct (get_next check s) as [s' r]. cbn [fst snd] in *. injection E as <- <-. exists (fst (advance L p)). rewrite R. split; [constructor|].
    exact (matches_solver p _ _ s' Ma St E1 E2).
  - injection E as <- <-. exists p. split; [|exact Ma].
    assert (X : has_valid check s = match pl_at p with Some _ => inr IllegalState | None => inl (negb (List.length L =? 0)) end).
    { unfold has_valid. destruct (pl_at p) as [n|]; cbn [stands] in So; [destruct So as (a & _ & ->); reflexivity|]. subst s. cbn [state s_model s_asserted].
      pose proof (Chain 0 (Nat.le_0_l _)) as C0. cbn [firstn] in C0. rewrite C0. unfold L. rewrite map_length. destruct l; reflexivity. }
    rewrite X. constructor.
Qed.

Lemma does_defined o x p p' e : matches p x -> does L o p p' e -> exists y, iterator_step check o x = Some y.
Proof.
  intros Ma Do. destruct x as [s v]. pose proof (fun i => live_usable p _ i Ma) as Us. pose proof (fun i => live_made p _ i Ma) as Md. cbn [it_live] in *.
  destruct Do as [p|p i Li|p i U|p i n U N|p i U N|p i j b Li Lj B|p i Li|p|p|p]; cbn [iterator_step].
  - eauto.
  - rewrite (Md i Li). cbn [bind]. eauto.
  - apply Us in U. rewrite U. destruct (get_current check s). eauto.
  - apply Us in U. rewrite U. destruct (get_next check s). eauto.
  - apply Us in U. rewrite U. destruct (get_next check s). eauto.
  - rewrite (Md i Li), (Md j Lj). cbn [bind]. eauto.
  - rewrite (Md i Li). cbn [bind]. eauto.
  - destruct (get_current check s). eauto.
  - destruct (get_next check s). eauto.
  - eauto.
Qed.
Lemma does_once o p p1 e1 p2 e2 : does L o p p1 e1 -> does L o p p2 e2 -> p1 = p2 /\ e1 = e2.
Proof.
  intros A B. destruct A as [p|p i Li|p i U|p i n U N|p i U N|p i j b Li Lj Q|p i Li|p|p|p]; inversion B; subst; try (split; reflexivity).
  - replace n0 with n by congruence. split; reflexivity.
  - congruence.
  - congruence.
  - split; [reflexivity|]. f_equal. apply Bool.eq_true_iff_eq. tauto.
Qed.

Lemma run_places os : forall x p es, matches p x -> (iterator_run check os x = Some es <-> does_all L os p es).
Proof.
  induction os as [|o os IH]; intros x p es Ma; cbn [iterator_run].
  - split; [intros E; injection E as <-; constructor|inversion 1; reflexivity].
  - split.
    + destruct (iterator_step check o x) as [[x' e]|] eqn:E; cbn [bind]; [|discriminate]. destruct (iterator_run check os x') as [r|] eqn:R; cbn [bind]; [|discriminate].
      intros Q. injection Q as <-. destruct (step_to_place o x p x' e Ma E) as (p' & Do & Ma'). econstructor; [exact Do|]. apply (IH x' p' r Ma'). exact R.
    + intros A. inversion A as [|o' os' q p' e es' Do Al]; subst. destruct (does_defined o x p p' e Ma Do) as ([x' e'] & E). rewrite E. cbn [bind].
      destruct (step_to_place o x p x' e' Ma E) as (p2 & Do2 & Ma2). destruct (does_once o p p' e p2 e' Do Do2) as (<- & <-).
      apply (IH x' p' es' Ma2) in Al. rewrite Al. reflexivity.
Qed.

Lemma matches_start : matches start (new_iterable (Solver vs ts None)).
Proof.
  constructor; cbn.
  - unfold state. cbn. rewrite app_nil_r. reflexivity.
  - reflexivity.
  - intros i H. lia.
  - intros i [].
Qed.

(** ** Loops *)
Lemma loop_from n : forall k a fuel, nth_error l k = Some a -> List.length l - k <= n -> n <= fuel ->
  for_each check fuel (state vs ts (firstn (S k) l) (Some a)) =
  match rev l with
  | [] => None
  | z :: _ => Some (map inl (map (configuration vs) (skipn k l)), state vs ts l (Some z))
  end.
Proof.
  induction n as [|n IH]; intros k a fuel E Le Lf; assert (Lk : k < List.length l) by (apply nth_error_Some; congruence); [lia|].
  destruct fuel as [|fuel]; [lia|]. cbn [for_each get_current state s_model s_vars]. fold (state vs ts (firstn (S k) l) (Some a)). rewrite (next_at (S k) (Some a) Lk).
  assert (Sk : skipn k l = a :: skipn (S k) l).
  { clear - E. revert k E. induction l as [|x r IH]; intros [|k] E; try discriminate; cbn in *; [congruence|]. apply IH. exact E. }
  rewrite Sk. destruct (nth_error l (S k)) as [b|] eqn:Eb; cbn [result_bool].
  - rewrite (IH (S k) b fuel Eb) by lia. destruct (rev l) as [|z r]; cbn [bind]; reflexivity.
  - apply nth_error_None in Eb. assert (Ez : List.length l = S k) by lia. rewrite <- Ez, firstn_all, skipn_all. cbn [map].
    assert (rev l = a :: rev (firstn k l)) as ->; [|reflexivity]. rewrite <- (firstn_skipn k l) at 1. rewrite rev_app_distr, Sk, <- Ez, skipn_all. reflexivity.
Qed.
Lemma first_loop fuel : S (List.length l) <= fuel ->
  for_each check fuel (Solver vs ts None) =
  Some (one_loop L, match rev l with [] => Solver vs ts None | z :: _ => state vs ts l (Some z) end).
Proof.
  intros Lf. replace (Solver vs ts None) with (state vs ts [] None) by (unfold state; cbn; rewrite app_nil_r; reflexivity).
  pose proof (next_at 0 None (Nat.le_0_l _)) as N. cbn [firstn] in N. destruct (nth_error l 0) as [a|] eqn:E0.
  - assert (H : for_each check fuel (state vs ts [] None) = for_each check fuel (state vs ts (firstn 1 l) (Some a))).
    { destruct fuel as [|fuel]; [lia|]. cbn [for_each get_current state s_model]. fold (state vs ts [] None). rewrite N. reflexivity. }
    rewrite H, (loop_from (List.length l) 0 a fuel E0) by lia. cbn [skipn]. unfold L, one_loop. destruct (rev l) as [|z r] eqn:Er.
    + exfalso. apply (f_equal (@List.length _)) in Er. rewrite rev_length in Er. cbn in Er. apply nth_error_None in Er || (destruct l; discriminate).
    + destruct (map (configuration vs) l) as [|c q] eqn:Em; [|reflexivity]. exfalso. apply map_eq_nil in Em. rewrite Em in E0. discriminate.
  - assert (El : l = []) by (destruct l; [reflexivity|discriminate]). destruct fuel as [|fuel]; [lia|]. cbn [for_each get_current state s_model]. fold (state vs ts [] None). rewrite N, N.
    unfold L. rewrite El. reflexivity.
Qed.
Lemma later_loops fuel : S (List.length l) <= fuel -> forall n,
  for_each_times check fuel n (match rev l with [] => Solver vs ts None | z :: _ => state vs ts l (Some z) end) = Some (repeat (later_loop L) n).
Proof.
  intros Lf. induction n as [|n IH]; [reflexivity|]. cbn [for_each_times repeat].
  assert (H : for_each check fuel (match rev l with [] => Solver vs ts None | z :: _ => state vs ts l (Some z) end) =
              Some (later_loop L, match rev l with [] => Solver vs ts None | z :: _ => state vs ts l (Some z) end)).
  { unfold later_loop, L. rewrite <- map_rev. destruct (rev l) as [|z r] eqn:Er.
    - rewrite (first_loop fuel Lf), Er. cbn [map]. do 2 f_equal. unfold one_loop, L. apply (f_equal (@rev _)) in Er. rewrite rev_involutive in Er. cbn in Er. rewrite Er. reflexivity.
    - cbn [map]. destruct fuel as [|fuel]; [lia|]. cbn [for_each get_current state s_model s_vars]. fold (state vs ts l (Some z)).
      pose proof (next_at (List.length l) (Some z) (le_n _)) as N. rewrite firstn_all in N. rewrite N.
      assert (nth_error l (List.length l) = None) as -> by (apply nth_error_None; lia). reflexivity. }
  rewrite H. cbn [bind]. rewrite IH. reflexivity.
Qed.
Lemma all_loops fuel n : S (List.length l) <= fuel ->
  for_each_times check fuel (S n) (Solver vs ts None) = Some (one_loop L :: repeat (later_loop L) n).
Proof. intros Lf. cbn [for_each_times]. rewrite (first_loop fuel Lf). cbn [bind]. rewrite (later_loops fuel Lf n). reflexivity. Qed.
End Walk.
End Chain.
