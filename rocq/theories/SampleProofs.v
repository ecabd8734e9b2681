(** Sample sets are written and read as specified. *)
From Coq Require Import List NArith Arith Bool Ascii String Permutation Sorted Lia.
From Verif Require Import Text TextProofs ConfigurationModel ConfigurationSpec ConfigurationProofs FeatureTreeModel FeatureTreeSpec FeatureTreeProofs FeatureOrderProofs FeatureEditSpec FeatureEditProofs
  FeatureDataProofs FeatureMergeResult SampleModel SampleSpec.
Import ListNotations.
Local Open Scope string_scope.
Local Open Scope list_scope.
Local Open Scope nat_scope.

(** ** Flags *)
Lemma contributes_dec h c i f : feature_at h i = Some f ->
  match option_value c (f_name f) with
  | Some v => if negb (text_eqb v (T "false")) && negb (text_eqb (f_output f) [])
              then contributes h c i (f_output f ++ match f_kind f with FNumeric _ _ => v | _ => [] end) else forall x, ~ contributes h c i x
  | None => forall x, ~ contributes h c i x
  end.
Proof.
  intros E. destruct (option_value c (f_name f)) as [v|] eqn:V.
  - destruct (negb (text_eqb v (T "false")) && negb (text_eqb (f_output f) [])) eqn:B.
    + apply andb_prop in B. destruct B as (B1 & B2). apply negb_true_iff, text_eqb_neq in B1, B2. exists f, v. auto.
    + intros x (g & w & G & W & N1 & N2 & _). assert (g = f) as -> by congruence. assert (w = v) as -> by congruence.
      apply text_eqb_neq in N1, N2. rewrite N1, N2 in B. discriminate B.
  - intros x (g & w & G & W & _). assert (g = f) as -> by congruence. congruence.
Qed.
Definition opened (xs : list text) : text := T "[" ++ match xs with [] => [] | x :: r => quoted x ++ flat_map (fun y => T ", " ++ quoted y) r end.
Lemma opened_snoc xs x : opened (xs ++ [x]) = (if List.length (opened xs) =? 1 then opened xs else opened xs ++ T ", ") ++ quoted x.
Proof.
  destruct xs as [|y r]; unfold opened; cbn [app].
  - cbn [flat_map List.length T list_ascii_of_string]. rewrite app_nil_r. reflexivity.
  - rewrite flat_map_app. cbn [flat_map]. rewrite app_nil_r. cbn [T list_ascii_of_string app List.length quoted]. cbn [Nat.eqb].
    rewrite <- !app_assoc. cbn [app]. rewrite <- !app_assoc. cbn [app]. rewrite <- !app_assoc. reflexivity.
Qed.
Lemma flags_written h c l : (forall i, In i l -> exists f, feature_at h i = Some f) -> exists xs, flags h c l xs /\
  forall ys, fold_left (fun o i => let* s := o in append_flag h c s i) l (Some (opened ys)) = Some (opened (ys ++ xs)).
Proof.
  induction l as [|i l IH]; intros D.
  - exists []. split; [constructor|]. intros ys. rewrite app_nil_r. reflexivity.
  - destruct IH as (xs & F & W); [intros j J; apply D; right; exact J|]. destruct (D i (or_introl eq_refl)) as (f & E). pose proof (contributes_dec h c i f E) as C.
    cbn [fold_left bind]. unfold append_flag at 2. rewrite E. cbn [bind]. destruct (option_value c (f_name f)) as [v|]; [|exists xs; split; [apply flags_skip; assumption|exact W]].
    destruct (negb (text_eqb v (T "false")) && negb (text_eqb (f_output f) [])); [|exists xs; split; [apply flags_skip; assumption|exact W]].
    eexists (_ :: xs). split; [apply flags_take; [exact C|exact F]|]. intros ys.
    cbv zeta. set (x := f_output f ++ match f_kind f with FNumeric _ _ => v | _ => [] end).
    match goal with |- fold_left _ _ (Some ?e) = _ => replace e with (opened (ys ++ [x])) by (rewrite opened_snoc; unfold quoted, quote, x; cbn [app]; rewrite <- !app_assoc; reflexivity) end.
    rewrite W. rewrite <- app_assoc. reflexivity.
Qed.
Lemma listed_opened xs : listed_text xs = opened xs ++ T "]".
Proof. unfold listed_text, opened. rewrite <- app_assoc. reflexivity. Qed.
Lemma flags_text_written h c l : (forall i, In i l -> exists f, feature_at h i = Some f) -> exists xs, flags h c l xs /\ flags_text h l c = Some (listed_text xs).
Proof.
  intros D. destruct (flags_written h c l D) as (xs & F & W). exists xs. split; [exact F|]. unfold flags_text. change (T "[") with (opened []). rewrite (W []). cbn [bind app]. rewrite listed_opened. reflexivity.
Qed.
Lemma contributes_fun h c i x y : contributes h c i x -> contributes h c i y -> x = y.
Proof. intros (f & v & A & B & _ & _ & ->) (g & w & A' & B' & _ & _ & ->). assert (g = f) as -> by congruence. assert (w = v) as -> by congruence. reflexivity. Qed.
Lemma flags_fun h c l xs ys : flags h c l xs -> flags h c l ys -> xs = ys.
Proof.
  intros F. revert ys. induction F as [|i l x xs C F IH|i l xs C F IH]; intros ys G; inversion G as [|i' l' y ys' C' G'|i' l' ys' C' G']; subst.
  - reflexivity.
  - f_equal; [exact (contributes_fun h c i x y C C')|apply IH; exact G'].
  - exfalso. exact (C' x C).
  - exfalso. exact (C y C').
  - apply IH. exact G'.
Qed.

(** ** The map *)
Definition key_lt (a b : text * text) : Prop := text_lt (fst a) (fst b).
Lemma map_assign_in k v l : forall a b, In (a, b) (map_assign k v l) -> (a = k /\ b = v) \/ In (a, b) l.
Proof.
  induction l as [|(k', v') r IH]; intros a b I; cbn [map_assign] in I.
  - destruct I as [I|[]]. injection I as <- <-. left. auto.
  - destruct (text_ltb k k'); [destruct I as [I|I]; [injection I as <- <-; left; auto|right; exact I]|].
    destruct (text_ltb k' k); destruct I as [I|I].
    + right. left. exact I.
    + destruct (IH a b I) as [J|J]; [left; exact J|right; right; exact J].
    + injection I as <- <-. left. auto.
    + right. right. exact I.
Qed.
Lemma map_assign_sorted k v l : StronglySorted key_lt l -> StronglySorted key_lt (map_assign k v l).
Proof.
  induction l as [|(k', v') r IH]; intros S; cbn [map_assign]; [repeat constructor|]. apply StronglySorted_inv in S. destruct S as (S & F).
  destruct (text_ltb k k') eqn:A.
  - apply text_ltb_spec in A. constructor; [constructor; assumption|]. constructor; [exact A|]. rewrite Forall_forall in *. intros x X. unfold key_lt in *. cbn [fst] in *. exact (text_lt_trans _ _ _ A (F x X)).
  - destruct (text_ltb k' k) eqn:B.
    + apply text_ltb_spec in B. constructor; [exact (IH S)|]. rewrite Forall_forall in *. intros (a, b) X. destruct (map_assign_in _ _ _ _ _ X) as [(-> & ->)|Y]; [exact B|exact (F _ Y)].
    + apply text_ltb_false in A, B. assert (k = k') as ->.
      { destruct A as [A|A]; [|congruence]. destruct B as [B|B]; [|congruence]. exfalso. exact (text_lt_irrefl _ (text_lt_trans _ _ _ A B)). }
      constructor; assumption.
Qed.
Lemma map_assign_new k v l a b : ~ In k (map fst l) -> (In (a, b) (map_assign k v l) <-> (a = k /\ b = v) \/ In (a, b) l).
Proof.
  intros N. split; [apply map_assign_in|]. induction l as [|(k', v') r IH]; cbn [map_assign].
  - intros [(-> & ->)|[]]. left. reflexivity.
  - cbn [map fst In] in N. intros H. destruct (text_ltb k k') eqn:A.
    + destruct H as [(-> & ->)|H]; [left; reflexivity|right; exact H].
    + destruct (text_ltb k' k) eqn:B.
      * destruct H as [H|[H|H]]; [right; apply IH; [tauto|left; exact H]|left; exact H|right; apply IH; [tauto|right; exact H]].
      * exfalso. apply text_ltb_false in A, B. apply N. left. destruct A as [A|A]; [|congruence]. destruct B as [B|B]; [|congruence]. exfalso. exact (text_lt_irrefl _ (text_lt_trans _ _ _ A B)).
Qed.

Lemma write_from_exact h l : (forall i, In i l -> exists f, feature_at h i = Some f) -> forall cs n es,
  StronglySorted key_lt es -> (forall k v, In (k, v) es -> exists j, j < n /\ k = print_N (N.of_nat j)) ->
  exists es', write_from h l n cs es = Some es' /\ StronglySorted key_lt es' /\
    forall k v, In (k, v) es' <-> In (k, v) es \/ exists j c xs, nth_error cs j = Some c /\ k = print_N (N.of_nat (n + j)) /\ flags h c l xs /\ v = listed_text xs.
Proof.
  intros D. induction cs as [|c cs IH]; intros n es So K; cbn [write_from].
  - exists es. split; [reflexivity|]. split; [exact So|]. intros k v. split; [auto|]. intros [H|(j & c & xs & H & _)]; [exact H|]. destruct j; discriminate H.
  - destruct (flags_text_written h c l D) as (xs & F & ->). cbn [bind].
    assert (~ In (print_N (N.of_nat n)) (map fst es)) as Nn.
    { intros I. apply in_map_iff in I. destruct I as ((k & v) & E & I). cbn [fst] in E. subst k. destruct (K _ _ I) as (j & L & E). apply print_N_inj in E. lia. }
    destruct (IH (S n) (map_assign (print_N (N.of_nat n)) (listed_text xs) es)) as (es' & E & S' & H).
    + apply map_assign_sorted. exact So.
    + intros k v I. destruct (map_assign_in _ _ _ _ _ I) as [(-> & _)|J]; [exists n; split; [lia|reflexivity]|]. destruct (K k v J) as (j & L & ->). exists j. split; [lia|reflexivity].
    + exists es'. split; [exact E|]. split; [exact S'|]. intros k v. rewrite H, (map_assign_new _ _ _ k v Nn). split.
      * intros [[(-> & ->)|I]|(j & d & ys & A & -> & B & ->)].
        -- right. exists 0, c, xs. rewrite Nat.add_0_r. auto.
        -- left. exact I.
        -- right. exists (S j), d, ys. rewrite Nat.add_succ_r. auto.
      * intros [I|([|j] & d & ys & A & -> & B & ->)].
        -- left. right. exact I.
        -- left. left. cbn [nth_error] in A. injection A as <-. rewrite Nat.add_0_r. split; [reflexivity|]. f_equal. exact (flags_fun h c l ys xs B F).
        -- right. exists j, d, ys. rewrite Nat.add_succ_r. auto.
Qed.

Lemma model_features_spec ord h m t : is_order ord -> represents h m t -> exists l, model_features ord h m = Some l /\ preorder t l /\ Permutation l (feature_ids t) /\ NoDup l.
Proof.
  intros O R. destruct (rep_top_data R) as (f & E & _). destruct (iterate_features ord h t O (rep_ok _ _ _ R) (rep_holds _ _ _ R) (rep_ids _ _ _ R)) as (l & I & P).
  { rewrite E. reflexivity. }
  exists l. unfold model_features. rewrite (rep_root _ _ _ R), I by lia. split; [reflexivity|exact P].
Qed.
Lemma features_exist h m t i : represents h m t -> In i (feature_ids t) -> exists f, feature_at h i = Some f /\ get_feature m (f_name f) = Some i.
Proof.
  intros R I. apply feature_ids_named in I. destruct I as (s & I). pose proof I as J. apply named_subtree in I. destruct I as (u & f & U & <- & Df & Nf). exists f.
  split; [exact (rep_feature_at h m t u f R U Df)|]. apply (rep_find R). subst s. exact J.
Qed.

Theorem written ord h m t cs : is_order ord -> represents h m t -> exists l es, preorder t l /\ Permutation l (feature_ids t) /\
  write_configurations ord h m cs = Some es /\ StronglySorted (fun a b => text_lt (fst a) (fst b)) es /\
  forall k v, In (k, v) es <-> exists n c xs, nth_error cs n = Some c /\ k = print_N (N.of_nat n) /\ flags h c l xs /\ v = listed_text xs.
Proof.
  intros O R. destruct (model_features_spec ord h m t O R) as (l & E & P & Pf & _). unfold write_configurations. rewrite E. cbn [bind].
  destruct (write_from_exact h l) with (cs := cs) (n := 0) (es := @nil (text * text)) as (es & W & S & H).
  - intros i I. destruct (features_exist h m t i R) as (f & F & _); [exact (Permutation_in _ Pf I)|]. exists f. exact F.
  - constructor.
  - intros k v [].
  - exists l, es. split; [exact P|]. split; [exact Pf|]. split; [exact W|]. split; [exact S|]. intros k v. rewrite H. split; [intros [[]|X]; exact X|auto].
Qed.

(** ** Entries can be told apart *)
Lemma quoted_split x y a b : ~ In (ascii_of_nat 34) x -> ~ In (ascii_of_nat 34) y -> x ++ ascii_of_nat 34 :: a = y ++ ascii_of_nat 34 :: b -> x = y /\ a = b.
Proof.
  revert y. induction x as [|c x IH]; intros [|d y] Nx Ny E; cbn [app] in E.
  - injection E as <-. auto.
  - exfalso. injection E as <- _. apply Ny. left. reflexivity.
  - exfalso. injection E as -> _. apply Nx. left. reflexivity.
  - injection E as <- E. destruct (IH y) as (-> & ->); [intros I; apply Nx; right; exact I|intros I; apply Ny; right; exact I|exact E|auto].
Qed.
Lemma tails_inj r s : Forall (fun x => ~ In (ascii_of_nat 34) x) r -> Forall (fun x => ~ In (ascii_of_nat 34) x) s ->
  flat_map (fun y => T ", " ++ quoted y) r ++ T "]" = flat_map (fun y => T ", " ++ quoted y) s ++ T "]" -> r = s.
Proof.
  revert s. induction r as [|x r IH]; intros [|y s] R S E; try reflexivity; try discriminate E. apply Forall_cons_iff in R, S. destruct R as (Nx & R), S as (Ny & S).
  cbn [flat_map] in E. rewrite <- !app_assoc in E. cbn [T list_ascii_of_string app quoted] in E. injection E as E. rewrite <- !app_assoc in E. cbn [app] in E.
  destruct (quoted_split _ _ _ _ Nx Ny E) as (-> & E'). f_equal. apply IH; assumption.
Qed.
Theorem entries_apart xs ys : Forall (fun x => ~ In (ascii_of_nat 34) x) xs -> Forall (fun x => ~ In (ascii_of_nat 34) x) ys -> listed_text xs = listed_text ys -> xs = ys.
Proof.
  destruct xs as [|x r], ys as [|y s]; intros X Y E; try reflexivity; try discriminate E. apply Forall_cons_iff in X, Y. destruct X as (Nx & X), Y as (Ny & Y).
  unfold listed_text in E. rewrite <- !app_assoc in E. cbn [T list_ascii_of_string app quoted] in E. injection E as E. rewrite <- !app_assoc in E. cbn [app] in E.
  destruct (quoted_split _ _ _ _ Nx Ny E) as (-> & E'). f_equal. exact (tails_inj r s X Y E').
Qed.

(** ** Rows *)
Definition cell_text (f : feature) (cell : text) : text :=
  match f_kind f with FBinary | FRoot => if text_eqb cell (T "0") then T "false" else T "true" | _ => cell end.
Definition settings (h : heap) (columns : list text) (row : text -> text) (l : list nid) : list (text * text) :=
  flat_map (fun i => match feature_at h i with
                     | Some f => if existsb (text_eqb (f_name f)) columns then [(f_name f, cell_text f (row (f_name f)))] else []
                     | None => [] end) l.
Lemma read_row_sets h columns row l : (forall i, In i l -> exists f, feature_at h i = Some f) -> forall c,
  fold_left (fun o i => let* c := o in read_cell h columns row c i) l (Some c) = Some (set_options c (settings h columns row l)).
Proof.
  induction l as [|i l IH]; intros D c; [reflexivity|]. destruct (D i (or_introl eq_refl)) as (f & E). cbn [fold_left bind]. unfold read_cell at 2. rewrite E. cbn [bind].
  unfold settings. cbn [flat_map]. rewrite E. fold (settings h columns row l). assert (forall j, In j l -> exists g, feature_at h j = Some g) as D' by (intros j J; apply D; right; exact J).
  destruct (existsb (text_eqb (f_name f)) columns); [|apply IH; exact D']. unfold cell_text. destruct (f_kind f); rewrite (IH D'); reflexivity.
Qed.
Lemma existsb_text s l : existsb (text_eqb s) l = true <-> In s l.
Proof.
  rewrite existsb_exists. split; [intros (x & I & E); apply text_eqb_eq in E; subst x; exact I|]. intros I. exists s. split; [exact I|apply text_eqb_eq; reflexivity].
Qed.
Lemma settings_in h columns row l s v : In (s, v) (settings h columns row l) <-> exists i f, In i l /\ feature_at h i = Some f /\ f_name f = s /\ In s columns /\ v = cell_text f (row s).
Proof.
  unfold settings. rewrite in_flat_map. split.
  - intros (i & I & H). destruct (feature_at h i) as [f|] eqn:E; [|destruct H]. destruct (existsb (text_eqb (f_name f)) columns) eqn:X; [|destruct H]. destruct H as [H|[]]. injection H as <- <-.
    apply existsb_text in X. exists i, f. auto.
  - intros (i & f & I & E & <- & C & ->). exists i. split; [exact I|]. rewrite E. apply existsb_text in C. rewrite C. left. reflexivity.
Qed.
Lemma settings_nodup h m t columns row l : represents h m t -> incl l (feature_ids t) -> NoDup l -> NoDup (map fst (settings h columns row l)).
Proof.
  intros R Inc D. induction l as [|i l IH]; [constructor|]. apply NoDup_cons_iff in D. destruct D as (Ni & D).
  assert (incl l (feature_ids t)) as Inc' by (intros j J; apply Inc; right; exact J). specialize (IH Inc' D). unfold settings. cbn [flat_map]. fold (settings h columns row l).
  destruct (features_exist h m t i R (Inc i (or_introl eq_refl))) as (f & E & G). rewrite E. destruct (existsb (text_eqb (f_name f)) columns); [|exact IH]. cbn [app map fst]. constructor; [|exact IH].
  intros I. apply in_map_iff in I. destruct I as ((s & v) & Es & I). cbn [fst] in Es. subst s. apply settings_in in I. destruct I as (j & g & J & Eg & Ng & _).
  destruct (features_exist h m t j R (Inc' j J)) as (g' & Eg' & Gg). assert (g' = g) as -> by congruence. rewrite Ng in Gg. assert (i = j) by congruence. subst j. contradiction.
Qed.
Lemma last_given_in ps n t : NoDup (map fst ps) -> (last_given ps n t <-> In (n, t) ps).
Proof.
  intros D. split.
  - intros (a & b & -> & _). apply in_or_app. right. left. reflexivity.
  - intros I. apply in_split in I. destruct I as (a & b & ->). exists a, b. split; [reflexivity|]. rewrite map_app in D. cbn [map fst] in D. apply NoDup_remove_2 in D. intros J. apply D. apply in_or_app. right. exact J.
Qed.
Lemma cell_text_value f cell v : (exists w, typed (cell_text f cell) w /\ v = as_string w) <-> cell_value f cell v.
Proof.
  unfold cell_text, cell_value. assert (forall b : bool, (exists w, typed (if b then T "false" else T "true") w /\ v = as_string w) <-> v = if b then T "false" else T "true") as H.
  { intros b. split.
    - intros (w & Tw & ->). apply convert_spec in Tw. destruct b; vm_compute in Tw; subst w; reflexivity.
    - intros ->. destruct b; eexists; (split; [apply convert_spec; reflexivity|reflexivity]). }
  destruct (f_kind f); [apply H|reflexivity|apply H|reflexivity].
Qed.
Lemma row_read h m t columns row l : represents h m t -> Permutation l (feature_ids t) -> NoDup l ->
  exists c, read_row h l columns row = Some c /\ row_config h m columns row c.
Proof.
  intros R P D. assert (forall i, In i l -> exists f, feature_at h i = Some f /\ get_feature m (f_name f) = Some i) as Ex by (intros i I; apply (features_exist h m t i R); exact (Permutation_in _ P I)).
  eexists. split; [unfold read_row; apply read_row_sets; intros i I; destruct (Ex i I) as (f & E & _); exists f; exact E|].
  intros n v. rewrite lookup_spec. split.
  - intros (x & w & L & Tw & ->). apply last_given_in in L; [|apply (settings_nodup h m t columns row l R); [intros i I; exact (Permutation_in _ P I)|exact D]].
    apply settings_in in L. destruct L as (i & f & I & E & <- & C & ->). exists i, f. destruct (Ex i I) as (f' & E' & G). assert (f' = f) as -> by congruence.
    split; [exact G|]. split; [exact E|]. split; [exact C|]. apply cell_text_value. exists w. auto.
  - intros (i & f & G & E & C & V). apply cell_text_value in V. destruct V as (w & Tw & ->). exists (cell_text f (row n)), w. split; [|auto].
    apply last_given_in; [apply (settings_nodup h m t columns row l R); [intros j J; exact (Permutation_in _ P J)|exact D]|]. apply settings_in. exists i, f.
    pose proof (proj1 (rep_find R n i) G) as Nm. split; [apply (Permutation_in _ (Permutation_sym P)), feature_ids_named; exists n; exact Nm|]. split; [exact E|]. split; [|auto].
    apply named_subtree in Nm. destruct Nm as (u & g & U & <- & Dg & <-). rewrite (rep_feature_at h m t u g R U Dg) in E. injection E as <-. reflexivity.
Qed.
Theorem table_read ord h m t tab : is_order ord -> represents h m t -> exists cs, read_table ord h m tab = Some cs /\
  Forall2 (row_config h m (t_columns tab)) (rev (t_rows tab)) cs.
Proof.
  intros O R. destruct (model_features_spec ord h m t O R) as (l & E & _ & P & D). unfold read_table. rewrite E. cbn [bind].
  assert (forall rows done cs, Forall2 (row_config h m (t_columns tab)) (rev done) cs -> exists cs',
    fold_left (fun o row => let* cs := o in let* c := read_row h l (t_columns tab) row in Some (c :: cs)) rows (Some cs) = Some cs' /\
    Forall2 (row_config h m (t_columns tab)) (rev (done ++ rows)) cs') as H.
  { induction rows as [|row rows IH]; intros done cs F; [exists cs; rewrite app_nil_r; split; [reflexivity|exact F]|]. cbn [fold_left bind].
    destruct (row_read h m t (t_columns tab) row l R P D) as (c & -> & C). cbn [bind]. destruct (IH (done ++ [row]) (c :: cs)) as (cs' & E' & F'); [rewrite rev_app_distr; constructor; assumption|].
    exists cs'. split; [exact E'|]. rewrite <- app_assoc in F'. exact F'. }
  exact (H (t_rows tab) [] [] (Forall2_nil _)).
Qed.
