(** Replacing texts in the formulas of an SXFM document. *)
From Coq Require Import List ZArith NArith Arith Bool Ascii String Permutation Sorted Lia.
From Verif Require Import Text TextProofs LlvmInt ConstraintModel ConstraintSpec ConstraintParserModel ConstraintTokenSpec ConstraintParserProofs ConstraintLexerProofs ConstraintRoundTrip
  SourceRangeModel FeatureTreeModel FeatureTreeSpec FeatureTreeProofs FeatureTransactionModel FeatureEditSpec FeatureBuildSpec
  SxfmModel SxfmSpec SxfmLineProofs SxfmTreeProofs SxfmTreeFinal SxfmFormulaSpec.
Import ListNotations.
Local Open Scope string_scope.
Local Open Scope list_scope.
Local Open Scope nat_scope.

(** ** Replacing in general *)
Lemma replaced_gone fuel key value t r : replace_all fuel key value t = Some r -> ~ occurs key r.
Proof.
  revert t. induction fuel as [|fuel IH]; intros t; cbn [replace_all]; [discriminate|]. destruct (find_text key t) as [i|] eqn:E; [apply IH|].
  intros X. injection X as <-. apply find_text_none. exact E.
Qed.
Lemma replace_mono fuel key value t r : replace_all fuel key value t = Some r -> forall g, fuel <= g -> replace_all g key value t = Some r.
Proof.
  revert t. induction fuel as [|fuel IH]; intros t; cbn [replace_all]; [discriminate|]. intros X [|g] L; [lia|]. cbn [replace_all].
  destruct (find_text key t) as [i|]; [apply IH; [exact X|lia]|exact X].
Qed.
Lemma replace_unused fuel key value t : ~ occurs key t -> replace_all (S fuel) key value t = Some t.
Proof. intros N. cbn [replace_all]. apply find_text_none in N. rewrite N. reflexivity. Qed.

Lemma found_in key t i : find_text key t = Some i -> exists a b, t = a ++ key ++ b /\ List.length a = i.
Proof.
  intros E. pose proof (find_text_some key t i E) as S. exists (firstn i t), (skipn (i + List.length key) t). split; [exact S|].
  apply firstn_length_le. revert i E S. clear. induction t as [|c t IH]; intros i; cbn [find_text].
  - destruct (starts_with key []); [|discriminate]. intros X _. injection X as <-. lia.
  - destruct (starts_with key (c :: t)); [intros X _; injection X as <-; lia|]. destruct (find_text key t) as [j|] eqn:F; [|discriminate]. intros X _. injection X as <-.
    cbn [List.length]. specialize (IH j eq_refl (find_text_some _ _ _ F)). lia.
Qed.
Lemma replace_found key value a b : replace_at (List.length a) key value (a ++ key ++ b) = a ++ value ++ b.
Proof.
  unfold replace_at. rewrite firstn_app, Nat.sub_diag, firstn_all. cbn [firstn]. rewrite app_nil_r.
  assert (skipn (List.length a + List.length key) (a ++ key ++ b) = b) as ->; [|reflexivity].
  rewrite app_assoc, <- app_length. apply skipn_app_exact.
Qed.

(** Every replacement makes the text shorter, or removes a character. *)
Theorem replace_shorter key value t : List.length value < List.length key -> exists r, replace_all (S (List.length t)) key value t = Some r.
Proof.
  intros L. remember (List.length t) as n eqn:En. assert (List.length t <= n) as Le by lia. clear En. revert t Le.
  induction n as [|n IH]; intros t Le.
  - cbn [replace_all]. destruct (find_text key t) as [i|] eqn:E; [|eexists; reflexivity]. destruct (found_in _ _ _ E) as (a & b & -> & _). rewrite !app_length in Le. lia.
  - cbn [replace_all]. destruct (find_text key t) as [i|] eqn:E; [|eexists; reflexivity]. destruct (found_in _ _ _ E) as (a & b & -> & <-).
    rewrite replace_found. apply IH. rewrite !app_length in *. lia.
Qed.
Definition count (c : ascii) (t : text) : nat := List.length (filter (Ascii.eqb c) t).
Lemma count_app c a b : count c (a ++ b) = count c a + count c b.
Proof. unfold count. rewrite filter_app, app_length. reflexivity. Qed.
Theorem replace_removing c key value t : In c key -> ~ In c value -> exists r, replace_all (S (List.length t)) key value t = Some r.
Proof.
  intros I N. assert (0 < count c key) as P. { unfold count. apply filter_In with (f := Ascii.eqb c) (x := c) in I || idtac. pose proof (proj2 (filter_In (Ascii.eqb c) c key) (conj I (Ascii.eqb_refl c))) as J. destruct (filter (Ascii.eqb c) key); [destruct J|cbn; lia]. }
  assert (count c value = 0) as Z. { unfold count. destruct (filter (Ascii.eqb c) value) as [|x l] eqn:F; [reflexivity|]. assert (In x (filter (Ascii.eqb c) value)) as J by (rewrite F; left; reflexivity).
    apply filter_In in J. destruct J as (J & E). apply Ascii.eqb_eq in E. subst x. contradiction. }
  assert (forall n t, count c t <= n -> exists r, replace_all (S n) key value t = Some r) as H.
  { clear t. induction n as [|n IH]; intros t Le.
    - cbn [replace_all]. destruct (find_text key t) as [i|] eqn:E; [|eexists; reflexivity]. destruct (found_in _ _ _ E) as (a & b & -> & _). rewrite !count_app in Le. lia.
    - cbn [replace_all]. destruct (find_text key t) as [i|] eqn:E; [|eexists; reflexivity]. destruct (found_in _ _ _ E) as (a & b & -> & <-).
      rewrite replace_found. apply IH. rewrite !count_app in *. lia. }
  destruct (H (List.length t) t) as (r & E); [|exists r; exact E]. unfold count. clear. induction t as [|x t IH]; cbn [filter]; [reflexivity|]. destruct (Ascii.eqb c x); cbn [List.length]; lia.
Qed.

(** ** A replacement that does not end *)
Definition many (c : ascii) (n : nat) : text := repeat c n.
Lemma find_behind i p r : find_text (T "ab") p = Some r -> find_text (T "ab") (many "b" i ++ p) = Some (i + r).
Proof.
  intros E. induction i as [|i IH]; [exact E|]. cbn [many repeat app find_text].
  change (starts_with (T "ab") ("b"%char :: repeat "b"%char i ++ p)) with false. cbn iota. fold (many "b" i). rewrite IH. reflexivity.
Qed.
Lemma many_snoc c n : many c n ++ [c] = many c (S n).
Proof. induction n as [|n IH]; [reflexivity|]. cbn [many repeat app]. f_equal. exact IH. Qed.
Lemma one_round i p q : find_text (T "ab") p = Some q ->
  replace_at (i + q) (T "ab") (T "bbaa") (many "b" i ++ p) = many "b" i ++ replace_at q (T "ab") (T "bbaa") p.
Proof.
  intros _. unfold replace_at, many. rewrite firstn_app, List.repeat_length.
  replace (i + q - i) with q by lia. rewrite firstn_all2 by (rewrite List.repeat_length; lia). rewrite skipn_app, List.repeat_length.
  replace (i + q + List.length (T "ab") - i) with (q + List.length (T "ab")) by lia.
  rewrite skipn_all2 by (rewrite List.repeat_length; lia). rewrite <- app_assoc. reflexivity.
Qed.
Lemma two_rounds fuel i p : replace_all (S (S fuel)) (T "ab") (T "bbaa") (many "b" i ++ T "abb" ++ p) = replace_all fuel (T "ab") (T "bbaa") (many "b" (S (S i)) ++ T "abb" ++ "a"%char :: "a"%char :: p).
Proof.
  cbn [replace_all]. rewrite (find_behind i (T "abb" ++ p) 0 eq_refl). rewrite (one_round i (T "abb" ++ p) 0 eq_refl).
  change (replace_at 0 (T "ab") (T "bbaa") (T "abb" ++ p)) with ("b"%char :: "b"%char :: T "aab" ++ p).
  assert (forall t, many "b" i ++ "b"%char :: "b"%char :: t = many "b" (S (S i)) ++ t) as Q.
  { intros t. rewrite <- (many_snoc "b" (S i)), <- (many_snoc "b" i), <- !app_assoc. reflexivity. }
  rewrite Q. rewrite (find_behind (S (S i)) (T "aab" ++ p) 1 eq_refl), (one_round (S (S i)) (T "aab" ++ p) 1 eq_refl).
  change (replace_at 1 (T "ab") (T "bbaa") (T "aab" ++ p)) with (T "abb" ++ "a"%char :: "a"%char :: p). reflexivity.
Qed.
Theorem replace_endless fuel : replace_all fuel (T "ab") (T "bbaa") (T "abb") = None.
Proof.
  change (T "abb") with (many "b" 0 ++ T "abb" ++ []). generalize 0 as i. generalize (@nil ascii) as p.
  induction fuel as [fuel IH] using lt_wf_ind. intros p i. destruct fuel as [|[|fuel]]; [reflexivity| |].
  - cbn [replace_all]. rewrite (find_behind i (T "abb" ++ p) 0 eq_refl). reflexivity.
  - rewrite two_rounds. apply IH. lia.
Qed.

(** ** Words in a text *)
Lemma app_cases {A} (a b c d : list A) : a ++ b = c ++ d -> (exists l, a = c ++ l /\ d = l ++ b) \/ (exists l, c = a ++ l /\ b = l ++ d).
Proof.
  revert c. induction a as [|x a IH]; intros c E.
  - right. exists c. split; [reflexivity|exact E].
  - destruct c as [|y c]; cbn [app] in E; [left; exists (x :: a); split; [reflexivity|symmetry; exact E]|]. injection E as <- E.
    destruct (IH c E) as [(l & -> & ->)|(l & -> & ->)]; [left; exists l; split; reflexivity|right; exists l; split; reflexivity].
Qed.
Lemma mark_apart {A} (c : A) key x y a r : ~ In c key -> x ++ key ++ y = a ++ c :: r ->
  (exists y', a = x ++ key ++ y' /\ y = y' ++ c :: r) \/ (key <> [] /\ exists x', x = a ++ c :: x' /\ r = x' ++ key ++ y) \/ key = [].
Proof.
  intros N E. destruct key as [|k key]; [right; right; reflexivity|]. destruct (app_cases _ _ _ _ E) as [(l & -> & E1)|(l & -> & E1)].
  - destruct l as [|d l]; cbn [app] in E1; injection E1 as <- E1; [exfalso; apply N; left; reflexivity|]. right; left. split; [discriminate|]. exists l. split; [reflexivity|exact E1].
  - left. destruct (app_cases _ _ _ _ E1) as [(l2 & E2 & E3)|(l2 & -> & E3)].
    + destruct l2 as [|d l2]; cbn [app] in E3.
      * rewrite app_nil_r in E2. exists []. rewrite app_nil_r, E2. split; [reflexivity|]. symmetry. exact E3.
      * injection E3 as <- _. exfalso. apply N. rewrite E2. apply in_or_app. right. left. reflexivity.
    + exists l2. split; [reflexivity|exact E3].
Qed.

Definition flat (ps : pieces) : text := flat_map (fun p => fst p ++ snd p) ps.
Lemma flat_app a b : flat (a ++ b) = flat a ++ flat b.
Proof. apply flat_map_app. Qed.
Lemma word_apart key c : word key -> SxfmSpec.word_char c = false -> ~ In c key.
Proof. intros (_ & W) F I. rewrite (W c I) in F. discriminate. Qed.
Lemma skip_between key s x y r : word key -> between s -> x ++ key ++ y = s ++ r -> exists x', x = s ++ x' /\ r = x' ++ key ++ y.
Proof.
  intros W. revert x. induction s as [|c s IH]; intros x B E; [exists x; split; [reflexivity|symmetry; exact E]|].
  assert (~ In c key) as N by (apply word_apart; [exact W|apply B; left; reflexivity]).
  destruct (mark_apart c key x y [] (s ++ r) N E) as [(y' & X & _)|[(_ & x' & -> & X)|X]].
  - symmetry in X. apply app_eq_nil in X. destruct X as (_ & X). apply app_eq_nil in X. destruct W as (W & _). destruct X as (X & _). contradiction.
  - symmetry in X. destruct (IH x' ltac:(intros d D; apply B; right; exact D) X) as (x2 & -> & ->). exists x2. split; reflexivity.
  - destruct W as (W & _). contradiction.
Qed.
Lemma in_pieces key ps : word key -> separated ps -> (forall p, In p ps -> between (snd p)) ->
  forall x y, x ++ key ++ y = flat ps ->
  exists ps1 u v s ps2, ps = ps1 ++ (u ++ key ++ v, s) :: ps2 /\ x = flat ps1 ++ u /\ y = v ++ s ++ flat ps2.
Proof.
  intros W. induction ps as [|(p, s) r IH]; intros Sp B x y E.
  - exfalso. cbn in E. apply app_eq_nil in E. destruct E as (_ & E). apply app_eq_nil in E. destruct W as (W & _), E as (E & _). contradiction.
  - change (flat ((p, s) :: r)) with ((p ++ s) ++ flat r) in E. rewrite <- app_assoc in E. destruct s as [|c s].
    + destruct r as [|q r].
      * cbn [app flat flat_map] in E. rewrite app_nil_r in E. exists [], x, y, [], []. rewrite <- E. repeat split. cbn. rewrite app_nil_r. reflexivity.
      * cbn [separated snd] in Sp. destruct Sp as (Sp & _). congruence.
    + assert (~ In c key) as N by (apply word_apart; [exact W|apply (B _ (or_introl eq_refl)); left; reflexivity]).
      change (p ++ (c :: s) ++ flat r) with (p ++ c :: s ++ flat r) in E.
      destruct (mark_apart c key x y p (s ++ flat r) N E) as [(y' & -> & ->)|[(_ & x' & -> & X)|X]].
      * exists [], x, y', (c :: s), r. repeat split.
      * symmetry in X. apply (skip_between key s x' y (flat r) W) in X; [|intros d D; apply (B _ (or_introl eq_refl)); right; exact D]. destruct X as (x2 & -> & X). symmetry in X.
        destruct (IH ltac:(destruct r; [exact I|exact (proj2 Sp)]) ltac:(intros q Q; apply B; right; exact Q) x2 y X) as (ps1 & u & v & s2 & ps2 & -> & -> & ->).
        exists ((p, c :: s) :: ps1), u, v, s2, ps2. split; [reflexivity|]. split; [|reflexivity]. change (flat ((p, c :: s) :: ps1)) with ((p ++ c :: s) ++ flat ps1). rewrite <- !app_assoc. reflexivity.
      * destruct W as (W & _). contradiction.
Qed.

(** ** Replacing whole words *)
Definition swap (key value : text) (p : text * text) : text * text := (if text_eqb (fst p) key then value else fst p, snd p).
Definition matches (key : text) (ps : pieces) : nat := List.length (filter (fun p => text_eqb (fst p) key) ps).
Lemma swap_id key value ps : (forall p, In p ps -> fst p <> key) -> map (swap key value) ps = ps.
Proof.
  intros N. rewrite <- (map_id ps) at 2. apply map_ext_in. intros (a, b) I. unfold swap. cbn [fst snd]. specialize (N _ I). cbn [fst] in N. apply text_eqb_neq in N. rewrite N. reflexivity.
Qed.
Lemma separated_ext a b : map snd a = map snd b -> separated a -> separated b.
Proof.
  revert b. induction a as [|p a IH]; intros [|q b] E; try discriminate; [intros _; exact I|]. injection E as Es E. intros H. destruct a as [|p' a], b as [|q' b]; try discriminate; [exact I|].
  destruct H as (H1 & H2). split; [rewrite <- Es; exact H1|apply IH; assumption].
Qed.
Lemma replace_words key value start ps : word key -> ~ occurs key value -> between start -> separated ps ->
  (forall p, In p ps -> between (snd p) /\ (fst p = key \/ ~ occurs key (fst p))) ->
  forall fuel, matches key ps < fuel -> replace_all fuel key value (start ++ flat ps) = Some (start ++ flat (map (swap key value) ps)).
Proof.
  intros W Nv Bs. assert (forall n ps, matches key ps = n -> separated ps -> (forall p, In p ps -> between (snd p) /\ (fst p = key \/ ~ occurs key (fst p))) ->
    forall fuel, n < fuel -> replace_all fuel key value (start ++ flat ps) = Some (start ++ flat (map (swap key value) ps))) as H;
    [|intros Sp B fuel L; exact (H _ ps eq_refl Sp B fuel L)].
  clear ps. induction n as [|n IH]; intros ps M Sp B [|fuel] L; try lia; cbn [replace_all].
  - destruct (find_text key (start ++ flat ps)) as [i|] eqn:E.
    + exfalso. destruct (found_in _ _ _ E) as (a & b & X & _). symmetry in X. destruct (skip_between key start a b (flat ps) W Bs X) as (x & -> & X2). symmetry in X2.
      destruct (in_pieces key ps W Sp (fun p I => proj1 (B p I)) x b X2) as (ps1 & u & v & s & ps2 & -> & _ & _).
      destruct (B (u ++ key ++ v, s) ltac:(apply in_or_app; right; left; reflexivity)) as (_ & [Q|Q]); cbn [fst] in Q; [|apply Q; exists u, v; reflexivity].
      unfold matches in M. rewrite filter_app, app_length in M. cbn [filter fst] in M. rewrite Q, (proj2 (text_eqb_eq key key) eq_refl) in M. cbn [List.length] in M. lia.
    + rewrite swap_id; [reflexivity|]. intros p I Q. apply (proj1 (find_text_none _ _) E). apply in_split in I. destruct I as (l1 & l2 & ->).
      exists (start ++ flat l1), (snd p ++ flat l2). rewrite flat_app. change (flat (p :: l2)) with ((fst p ++ snd p) ++ flat l2). rewrite Q, <- !app_assoc. reflexivity.
  - destruct (find_text key (start ++ flat ps)) as [i|] eqn:E.
    + destruct (found_in _ _ _ E) as (a & b & X & <-). rewrite X, replace_found. symmetry in X. destruct (skip_between key start a b (flat ps) W Bs X) as (x & -> & X2). symmetry in X2.
      destruct (in_pieces key ps W Sp (fun p I => proj1 (B p I)) x b X2) as (ps1 & u & v & s & ps2 & -> & -> & ->).
      destruct (B (u ++ key ++ v, s) ltac:(apply in_or_app; right; left; reflexivity)) as (Bs2 & [Q|Q]); cbn [fst snd] in Q, Bs2; [|exfalso; apply Q; exists u, v; reflexivity].
      assert (u = [] /\ v = []) as (-> & ->). { assert (List.length u + List.length v = 0) as Z by (apply (f_equal (@List.length ascii)) in Q; rewrite !app_length in Q; lia). split; [destruct u|destruct v]; try reflexivity; cbn [List.length] in Z; lia. }
      assert ((start ++ flat ps1 ++ []) ++ value ++ [] ++ s ++ flat ps2 = start ++ flat (ps1 ++ (value, s) :: ps2)) as ->.
      { rewrite flat_app. change (flat ((value, s) :: ps2)) with ((value ++ s) ++ flat ps2). rewrite app_nil_r, <- !app_assoc. reflexivity. }
      assert (text_eqb value key = false) as Vk. { apply text_eqb_neq. intros ->. apply Nv. exists [], []. rewrite app_nil_r. reflexivity. }
      cbn [app] in M, Sp, B |- *. rewrite app_nil_r in M, Sp, B |- *.
      rewrite (IH (ps1 ++ (value, s) :: ps2)); [|unfold matches in *; rewrite filter_app, app_length in *; cbn [filter fst] in *; rewrite Vk; rewrite (proj2 (text_eqb_eq key key) eq_refl) in M; cbn [List.length] in M; lia| | |lia].
      * rewrite !map_app. cbn [map]. unfold swap at 2 5. cbn [fst snd]. rewrite Vk, (proj2 (text_eqb_eq key key) eq_refl). reflexivity.
      * apply separated_ext with (ps1 ++ (key, s) :: ps2); [rewrite !map_app; reflexivity|exact Sp].
      * intros p I. apply in_app_or in I. destruct I as [I|[<-|I]]; [apply B; apply in_or_app; left; exact I| |apply B; apply in_or_app; right; right; exact I].
        cbn [fst snd]. split; [exact Bs2|right; exact Nv].
    + exfalso. destruct (filter (fun p => text_eqb (fst p) key) ps) as [|p l] eqn:F; [unfold matches in M; rewrite F in M; discriminate M|].
      assert (In p (filter (fun p => text_eqb (fst p) key) ps)) as I by (rewrite F; left; reflexivity). apply filter_In in I. destruct I as (I & Q). apply text_eqb_eq in Q.
      apply (proj1 (find_text_none _ _) E). apply in_split in I. destruct I as (l1 & l2 & ->).
      exists (start ++ flat l1), (snd p ++ flat l2). rewrite flat_app. change (flat (p :: l2)) with ((fst p ++ snd p) ++ flat l2). rewrite Q, <- !app_assoc. reflexivity.
Qed.

(** ** Replacing all identifiers *)
Lemma insert_key_perm k l : Permutation (insert_key k l) (k :: l).
Proof. induction l as [|x l IH]; [apply Permutation_refl|]. cbn [insert_key]. destruct (text_ltb x k); [apply Permutation_refl|]. eapply Permutation_trans; [apply perm_skip, IH|apply perm_swap]. Qed.
Lemma sorted_keys_perm m : Permutation (sorted_keys m) (map fst m).
Proof. unfold sorted_keys. induction (map fst m) as [|k l IH]; [apply Permutation_refl|]. cbn [fold_right]. eapply Permutation_trans; [apply insert_key_perm|apply perm_skip, IH]. Qed.
Definition ge (a b : text) : Prop := text_ltb a b = false.
Lemma ge_trans a b c : ge a b -> ge b c -> ge a c.
Proof.
  unfold ge. rewrite !text_ltb_false. intros [H|H] [K|K]; subst; auto. left. exact (text_lt_trans _ _ _ K H).
Qed.
Lemma insert_key_sorted k l : StronglySorted ge l -> StronglySorted ge (insert_key k l).
Proof.
  induction l as [|x l IH]; intros H; cbn [insert_key]; [repeat constructor|]. apply StronglySorted_inv in H. destruct H as (H & F). destruct (text_ltb x k) eqn:E.
  - assert (ge k x) as G. { unfold ge. apply text_ltb_false. left. apply text_ltb_spec. exact E. }
    constructor; [constructor; assumption|]. constructor; [exact G|]. eapply Forall_impl; [|exact F]. intros y Y. exact (ge_trans _ _ _ G Y).
  - constructor; [apply IH; exact H|]. rewrite Forall_forall in F |- *. intros y Y. apply (Permutation_in _ (insert_key_perm k l)) in Y. destruct Y as [<-|Y]; [exact E|exact (F y Y)].
Qed.
Lemma sorted_keys_sorted m : StronglySorted ge (sorted_keys m).
Proof. unfold sorted_keys. induction (map fst m) as [|k l IH]; cbn [fold_right]; [constructor|]. apply insert_key_sorted. exact IH. Qed.

Section Keys.
Variables (m : list (text * text)) (start : text) (ps : pieces).
Let sub (j n : text) : Prop := lookup text_eqb j m = Some n /\ j <> n.
Hypothesis Nk : NoDup (map fst m).
Hypothesis Wk : forall j n, sub j n -> word j /\ ~ occurs j n.
Hypothesis Ph : phrase start ps.
Hypothesis Uw : forall w j n, In w (map fst ps) -> sub j n -> occurs j w -> j = w \/ exists n', sub w n' /\ text_lt j w.
Hypothesis Un : forall w n j n', In w (map fst ps) -> sub w n -> sub j n' -> occurs j n -> text_lt w j.
Definition named (w : text) : text := match lookup text_eqb w m with Some n => n | None => w end.
Definition partly (r : list text) (w : text) : text := if existsb (text_eqb w) r then w else named w.

Lemma lookup_key k : In k (map fst m) -> exists n, lookup text_eqb k m = Some n.
Proof.
  clear. induction m as [|(a, b) l IH]; intros I; [destruct I|]. cbn [lookup]. destruct (text_eqb k a) eqn:E; [eexists; reflexivity|]. destruct I as [I|I]; [|exact (IH I)].
  cbn [fst] in I. subst a. rewrite (proj2 (text_eqb_eq k k) eq_refl) in E. discriminate.
Qed.
Lemma key_in k n : lookup text_eqb k m = Some n -> In k (map fst m).
Proof. intros E. apply (lookup_in text_eqb text_eqb_eq) in E. apply in_map_iff. exists (k, n). split; [reflexivity|exact E]. Qed.

Definition renamed (f : text -> text) : pieces := map (fun p => (f (fst p), snd p)) ps.
Lemma renamed_ext f g : (forall w, In w (map fst ps) -> f w = g w) -> renamed f = renamed g.
Proof. intros H. apply map_ext_in. intros p I. rewrite (H (fst p)); [reflexivity|]. apply in_map. exact I. Qed.

Lemma replace_keys_words fuel : List.length ps < fuel -> forall r done, sorted_keys m = done ++ r ->
  replace_keys fuel m r (start ++ flat (renamed (partly r))) = Some (start ++ flat (renamed named)).
Proof.
  intros Lf. induction r as [|k r IH]; intros done E; [reflexivity|]. cbn [replace_keys].
  assert (In k (map fst m)) as Ik. { apply (Permutation_in _ (sorted_keys_perm m)). rewrite E. apply in_or_app. right. left. reflexivity. }
  assert (NoDup (sorted_keys m)) as Ns by (apply Permutation_NoDup with (map fst m); [apply Permutation_sym, sorted_keys_perm|exact Nk]).
  assert (~ In k r) as Nr. { rewrite E in Ns. apply NoDup_remove_2 in Ns. intros I. apply Ns. apply in_or_app. right. exact I. }
  assert (forall x, In x r -> ge k x) as Gr.
  { pose proof (sorted_keys_sorted m) as So. rewrite E in So. clear - So. induction done as [|d l IHd]; cbn [app] in So; apply StronglySorted_inv in So; destruct So as (So & F); [|exact (IHd So)]. rewrite Forall_forall in F. exact F. }
  assert (forall x, In x done -> ge x k) as Gd.
  { pose proof (sorted_keys_sorted m) as So. rewrite E in So. clear - So. induction done as [|d l IHd]; intros x []; cbn [app] in So; apply StronglySorted_inv in So; destruct So as (So & F).
    - subst d. rewrite Forall_forall in F. apply F. apply in_or_app. right. left. reflexivity.
    - exact (IHd So x H). }
  destruct (lookup_key k Ik) as (v & Ev). rewrite Ev.
  assert (existsb (text_eqb k) r = false) as Kr.
  { destruct (existsb (text_eqb k) r) eqn:X; [|reflexivity]. exfalso. apply existsb_exists in X. destruct X as (y & Y & Q). apply text_eqb_eq in Q. subst y. contradiction. }
  assert (forall w, w <> k -> partly (k :: r) w = partly r w) as P1.
  { intros w N. unfold partly. cbn [existsb]. apply text_eqb_neq in N. rewrite N. reflexivity. }
  assert (partly (k :: r) k = k) as P2. { unfold partly. cbn [existsb]. rewrite (proj2 (text_eqb_eq k k) eq_refl). reflexivity. }
  assert (partly r k = v) as P3. { unfold partly, named. rewrite Kr, Ev. reflexivity. }
  assert (forall t1, (if text_eqb v k then Some (start ++ flat (renamed (partly (k :: r)))) else replace_all fuel k v (start ++ flat (renamed (partly (k :: r))))) = Some t1 -> t1 = start ++ flat (renamed (partly r)) ->
     (let* t1 := (if text_eqb v k then Some (start ++ flat (renamed (partly (k :: r)))) else replace_all fuel k v (start ++ flat (renamed (partly (k :: r))))) in replace_keys fuel m r t1) = Some (start ++ flat (renamed named))) as Fin.
  { intros t1 Q ->. rewrite Q. cbn [bind]. apply (IH (done ++ [k])). rewrite E, <- app_assoc. reflexivity. }
  destruct (text_eqb v k) eqn:Evk.
  - apply text_eqb_eq in Evk. eapply Fin; [reflexivity|]. f_equal. f_equal. apply renamed_ext. intros w _.
    destruct (text_eqb w k) eqn:Q; [apply text_eqb_eq in Q; subst w; rewrite P2, P3; symmetry; exact Evk|apply text_eqb_neq in Q; exact (P1 w Q)].
  - apply text_eqb_neq in Evk. assert (sub k v) as Sk by (split; [exact Ev|congruence]). destruct (Wk k v Sk) as (Wd & Nv).
    assert (forall w, In w (map fst ps) -> w <> k -> ~ occurs k (partly r w)) as Key.
    { intros w Iw Nw O. unfold partly in O. destruct (existsb (text_eqb w) r) eqn:X.
      - apply existsb_exists in X. destruct X as (y & Y & Q). apply text_eqb_eq in Q. subst y. destruct (Uw w k v Iw Sk O) as [Q|(n' & _ & Lt)]; [congruence|].
        specialize (Gr w Y). unfold ge in Gr. apply text_ltb_false in Gr. apply text_ltb_spec in Lt. destruct Gr as [Gr|Gr]; [|congruence]. apply text_ltb_spec in Lt. exact (text_lt_irrefl _ (text_lt_trans _ _ _ Lt Gr)).
      - unfold named in O. destruct (lookup text_eqb w m) as [n|] eqn:Lw.
        + assert (In w done) as Id.
          { pose proof (key_in w n Lw) as Kw. apply (Permutation_in _ (Permutation_sym (sorted_keys_perm m))) in Kw. rewrite E in Kw. apply in_app_or in Kw. destruct Kw as [Kw|[Kw|Kw]]; [exact Kw|congruence|].
            exfalso. assert (existsb (text_eqb w) r = true) as Z by (apply existsb_exists; exists w; split; [exact Kw|apply text_eqb_eq; reflexivity]). congruence. }
          specialize (Gd w Id). unfold ge in Gd. apply text_ltb_false in Gd. destruct Gd as [Gd|Gd]; [|congruence].
          destruct (text_eqb w n) eqn:Wn.
          * apply text_eqb_eq in Wn. subst n. destruct (Uw w k v Iw Sk O) as [Q|(n' & (Ln & Nn) & _)]; [congruence|]. congruence.
          * apply text_eqb_neq in Wn. pose proof (Un w n k v Iw (conj Lw Wn) Sk O) as Lt. exact (text_lt_irrefl _ (text_lt_trans _ _ _ Lt Gd)).
        + destruct (Uw w k v Iw Sk O) as [Q|(n' & (Ln & _) & _)]; [congruence|congruence]. }
    eapply Fin.
    + apply replace_words; [exact Wd|exact Nv|exact (ph_start _ _ Ph)| | |].
      * apply separated_ext with ps; [unfold renamed; rewrite map_map; reflexivity|exact (ph_separated _ _ Ph)].
      * intros p I. apply in_map_iff in I. destruct I as (q & <- & I). cbn [fst snd]. split; [exact (proj2 (ph_words _ _ Ph q I))|].
        destruct (text_eqb (fst q) k) eqn:Q; [apply text_eqb_eq in Q; left; rewrite Q; exact P2|]. apply text_eqb_neq in Q. right. rewrite (P1 _ Q). apply Key; [apply in_map; exact I|exact Q].
      * eapply Nat.le_lt_trans; [|exact Lf]. unfold matches. rewrite <- (map_length (fun p => (partly (k :: r) (fst p), snd p)) ps). fold (renamed (partly (k :: r))).
        clear. generalize (renamed (partly (k :: r))). intros l. induction l as [|x l IHl]; cbn [filter]; [reflexivity|]. destruct (text_eqb (fst x) k); cbn [List.length]; lia.
    + f_equal. f_equal. unfold renamed. rewrite map_map. apply map_ext_in. intros p I. unfold swap. cbn [fst snd]. f_equal.
      destruct (text_eqb (fst p) k) eqn:Q.
      * apply text_eqb_eq in Q. rewrite Q, P2, P3, (proj2 (text_eqb_eq k k) eq_refl). reflexivity.
      * apply text_eqb_neq in Q. rewrite (P1 _ Q). destruct (text_eqb (partly r (fst p)) k) eqn:Z; [|reflexivity]. exfalso. apply text_eqb_eq in Z.
        apply (Key (fst p) (in_map fst _ _ I) Q). rewrite Z. exists [], []. rewrite app_nil_r. reflexivity.
Qed.

Theorem replace_all_keys fuel : List.length ps < fuel -> replace_keys fuel m (sorted_keys m) (start ++ flat ps) = Some (start ++ flat (renamed named)).
Proof.
  intros L. rewrite <- (replace_keys_words fuel L (sorted_keys m) [] eq_refl). f_equal. f_equal. f_equal. unfold renamed. rewrite <- (map_id ps) at 1. apply map_ext. intros (w, s). cbn [fst snd]. f_equal.
  unfold partly. destruct (existsb (text_eqb w) (sorted_keys m)) eqn:X; [reflexivity|]. unfold named. destruct (lookup text_eqb w m) as [n|] eqn:Lw; [|reflexivity]. exfalso.
  apply key_in in Lw. apply (Permutation_in _ (Permutation_sym (sorted_keys_perm m))) in Lw.
  assert (existsb (text_eqb w) (sorted_keys m) = true) as Z by (apply existsb_exists; exists w; split; [exact Lw|apply text_eqb_eq; reflexivity]). congruence.
Qed.
End Keys.
