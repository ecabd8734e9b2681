(** Proofs about configurations. *)
From Coq Require Import List Ascii String ZArith NArith Arith Bool Lia Permutation.
From Verif Require Import Text NumSpec TextProofs LlvmInt LlvmIntProofs ConfigurationModel ConfigurationSpec.
Import ListNotations.

(** ** Literals *)

Lemma to_lower_zero a : Ascii.eqb "0"%char (to_lower a) = Ascii.eqb a "0"%char.
Proof. destruct a as [[] [] [] [] [] [] [] []]; reflexivity. Qed.
Lemma to_lower_x a : Ascii.eqb "x"%char (to_lower a) = Ascii.eqb a "x"%char || Ascii.eqb a "X"%char.
Proof. destruct a as [[] [] [] [] [] [] [] []]; reflexivity. Qed.
Lemma to_lower_b a : Ascii.eqb "b"%char (to_lower a) = Ascii.eqb a "b"%char || Ascii.eqb a "B"%char.
Proof. destruct a as [[] [] [] [] [] [] [] []]; reflexivity. Qed.

Lemma auto_radix_eq a b t : auto_radix (a :: b :: t) =
  if Ascii.eqb a "0"%char then
    if Ascii.eqb b "x"%char || Ascii.eqb b "X"%char then (16%N, t)
    else if Ascii.eqb b "b"%char || Ascii.eqb b "B"%char then (2%N, t)
    else if Ascii.eqb b "o"%char then (8%N, t)
    else if is_digit b then (8%N, b :: t) else (10%N, a :: b :: t)
  else (10%N, a :: b :: t).
Proof.
  unfold auto_radix. cbn [lower map].
  change (T "0x") with ["0"%char; "x"%char]. change (T "0b") with ["0"%char; "b"%char].
  change (T "0o") with ["0"%char; "o"%char]. cbn [starts_with skipn].
  rewrite to_lower_zero, to_lower_x, to_lower_b, !andb_true_r.
  rewrite (Ascii.eqb_sym "0"%char a), (Ascii.eqb_sym "o"%char b).
  destruct (Ascii.eqb a "0"%char); cbn [andb]; auto.
Qed.

Lemma magnitude_spec t v : magnitude t v <->
  let (R, ds) := auto_radix t in ds <> [] /\ radix_value R 0 ds = Some v.
Proof.
  split.
  - intros M. destruct M as [x ds v [->| ->] N H|x ds v [->| ->] N H|ds v N H|d ds v D H|d ds D N].
    1-5: rewrite auto_radix_eq; cbn; auto.
    + rewrite auto_radix_eq. rewrite Ascii.eqb_refl. rewrite D.
      assert (forall c, is_digit c = false -> Ascii.eqb d c = false) as Hd.
      { intros c Hc. destruct (Ascii.eqb_spec d c) as [->|]; [congruence|auto]. }
      rewrite !Hd by reflexivity. cbn [orb]. split; [discriminate|auto].
    + destruct ds as [|e ds].
      * assert (auto_radix [d] = (10%N, [d])) as ->.
        { unfold auto_radix. cbn. rewrite !andb_false_r. reflexivity. }
        split; [discriminate|]. apply radix_value_dec; auto.
      * rewrite auto_radix_eq. destruct (Ascii.eqb_spec d "0"%char) as [->|_].
        { destruct N; [congruence|discriminate]. }
        split; [discriminate|]. apply radix_value_dec; auto.
  - destruct t as [|a [|b t]].
    + cbn. intros [H _]. congruence.
    + assert (auto_radix [a] = (10%N, [a])) as ->.
      { unfold auto_radix. cbn. rewrite !andb_false_r. reflexivity. }
      intros [_ H]. pose proof (radix10_all_digits _ _ _ H) as D.
      rewrite radix_value_dec in H by auto. injection H as <-. apply M_dec; auto.
    + rewrite auto_radix_eq. destruct (Ascii.eqb_spec a "0"%char) as [->|N0].
      * destruct (Ascii.eqb b "x"%char || Ascii.eqb b "X"%char) eqn:X.
        { intros [N H]. apply M_hex; auto. apply orb_true_iff in X. rewrite !Ascii.eqb_eq in X. auto. }
        destruct (Ascii.eqb b "b"%char || Ascii.eqb b "B"%char) eqn:B.
        { intros [N H]. apply M_bin; auto. apply orb_true_iff in B. rewrite !Ascii.eqb_eq in B. auto. }
        destruct (Ascii.eqb_spec b "o"%char) as [->|O].
        { intros [N H]. apply M_oct; auto. }
        destruct (is_digit b) eqn:D.
        { intros [N H]. apply M_zero; auto. }
        intros [_ H]. apply radix10_all_digits in H. cbn in H. rewrite D in H. discriminate.
      * intros [_ H]. pose proof (radix10_all_digits _ _ _ H) as D.
        rewrite radix_value_dec in H by auto. injection H as <-. apply M_dec; auto.
Qed.

Lemma magnitude_no_minus t v : magnitude t v -> forall r, t <> "-"%char :: r.
Proof. intros M r ->. inversion M; subst. simpl in *. discriminate. Qed.

Lemma int_literal_spec t z : get_as_int64 0 t = Some z <-> int_literal t z.
Proof.
  assert (G : 0%N = 0%N \/ good_radix 0) by auto.
  assert (B : (int64_min <= 0 <= int64_max)%Z) by (unfold int64_min, int64_max; lia).
  destruct t as [|a t].
  - split; [discriminate|]. intros [_ [(v & M & _)|(r & v & E & _)]]; [|discriminate]. inversion M.
  - destruct (Ascii.eqb_spec a "-"%char) as [->|Na].
    + rewrite get_as_int64_neg by auto. unfold eff_radix. cbn [N.eqb].
      unfold int_literal, is_int64. split.
      * intros H. pose proof (magnitude_spec t) as M. destruct (auto_radix t) as [R ds].
        destruct H as (N & v & H & -> & I). split; [split; [auto|]; lia|].
        right. exists t, v. repeat split; auto. apply M; auto.
      * intros [I [(v & M & _)|(r & v & E & M & ->)]].
        { exfalso. eapply magnitude_no_minus; eauto. }
        injection E as <-. apply magnitude_spec in M. destruct (auto_radix t) as [R ds].
        destruct M as [N H]. split; auto. exists v. repeat split; auto. tauto.
    + rewrite get_as_int64_pos; auto. 2: { intros r H. injection H. auto. }
      unfold eff_radix. cbn [N.eqb]. unfold int_literal, is_int64. split.
      * intros H. pose proof (magnitude_spec (a :: t)) as M. destruct (auto_radix (a :: t)) as [R ds].
        destruct H as (N & v & H & -> & I). split; [split; [|auto]; lia|].
        left. exists v. split; auto. apply M; auto.
      * intros [I [(v & M & ->)|(r & v & E & _)]]; [|congruence].
        apply magnitude_spec in M. destruct (auto_radix (a :: t)) as [R ds].
        destruct M as [N H]. split; auto. exists v. repeat split; auto. tauto.
Qed.

Lemma digits_of_head fuel n acc : (0 < n)%N -> N.to_nat (N.log2 n) < fuel ->
  exists d ds, digits_of fuel n acc = d :: ds /\ d <> "0"%char.
Proof.
  revert n acc. induction fuel as [|f IH]; intros n acc P L; [lia|]. cbn [digits_of].
  destruct (n <? 10)%N eqn:E.
  - apply N.ltb_lt in E. eexists _, _. split; [reflexivity|].
    rewrite N.mod_small by auto. intros H. apply (f_equal code) in H. rewrite code_digit in H by auto.
    change (code "0"%char) with 48 in H. lia.
  - apply N.ltb_ge in E. apply IH.
    + apply N.div_str_pos. lia.
    + pose proof (log2_div10 n E). lia.
Qed.

Lemma print_N_magnitude n : magnitude (print_N n) n.
Proof.
  destruct (print_N n) as [|d ds] eqn:E; [exfalso; eapply print_N_nonempty; eauto|].
  pose proof (print_N_value n) as V. pose proof (print_N_digits n) as D. rewrite E in V, D.
  rewrite <- V. apply M_dec; auto.
  destruct (N.eq_dec n 0) as [->|P].
  - right. vm_compute in E. congruence.
  - left. unfold print_N in E. destruct (digits_of_head (S (N.to_nat (N.log2 n))) n []) as (d' & ds' & E' & N'); try lia.
    congruence.
Qed.

Lemma print_Z_literal z : is_int64 z -> int_literal (print_Z z) z.
Proof.
  intros I. split; auto. destruct z as [|p|p]; simpl.
  - left. exists 0%N. split; auto. apply (print_N_magnitude 0).
  - left. exists (Npos p). split; auto. apply print_N_magnitude.
  - right. exists (print_N (Npos p)), (Npos p). repeat split; auto. apply print_N_magnitude.
Qed.

(** ** Typed values *)

Lemma bool_word_eqb t : text_eqb (lower t) (T "true") || text_eqb (lower t) (T "false") = true <-> bool_word t.
Proof. rewrite orb_true_iff, !text_eqb_eq. reflexivity. Qed.

Lemma convert_typed t : typed t (convert t).
Proof.
  unfold convert. destruct (text_eqb (lower t) (T "true") || text_eqb (lower t) (T "false")) eqn:B.
  - apply bool_word_eqb in B. destruct (text_eqb t (T "true")) eqn:E.
    + apply text_eqb_eq in E. subst. constructor.
    + apply text_eqb_neq in E. constructor; auto.
  - assert (~ bool_word t) as NB by (rewrite <- bool_word_eqb, B; discriminate).
    destruct (get_as_int64 0 t) as [z|] eqn:G.
    + apply int_literal_spec in G. constructor; auto.
    + constructor; auto. intros z H. apply int_literal_spec in H. congruence.
Qed.

Lemma typed_fun t v w : typed t v -> typed t w -> v = w.
Proof.
  assert (bool_word (T "true")) as BT by (left; reflexivity).
  intros H1 H2. destruct H1; inversion H2; subst; try reflexivity; try tauto; try congruence;
  repeat match goal with H : int_literal _ _ |- _ => apply int_literal_spec in H end; try congruence;
  exfalso; match goal with H : forall z, ~ int_literal _ z |- _ => eapply H, int_literal_spec; eauto end.
Qed.

Lemma convert_spec t v : convert t = v <-> typed t v.
Proof.
  split; [intros <-; apply convert_typed|]. intros H. eapply typed_fun; eauto. apply convert_typed.
Qed.

Lemma print_Z_not_bool z : ~ bool_word (print_Z z).
Proof.
  assert (D : forall n, lower (print_N n) = print_N n) by (intros; apply lower_digits, print_N_digits).
  assert (E : forall n, ~ (print_N n = T "true" \/ print_N n = T "false")).
  { intros n H. pose proof (print_N_digits n) as F. destruct H as [H|H]; rewrite H in F; discriminate. }
  unfold bool_word. destruct z; cbn [print_Z].
  - rewrite D. apply E.
  - rewrite D. apply E.
  - cbn [lower map]. intros [H|H]; discriminate.
Qed.

(** Reading the text of an option again gives the same typed value. *)
Lemma convert_stable t : convert (as_string (convert t)) = convert t.
Proof.
  pose proof (convert_typed t) as H. destruct H as [|t B N|t z B L|t B L]; cbn [as_string].
  - reflexivity.
  - reflexivity.
  - apply convert_spec. constructor; [apply print_Z_not_bool|]. apply print_Z_literal. apply L.
  - apply convert_spec. constructor; auto.
Qed.

(** ** The map *)

Lemma find_put c n v m : find_option (put c n v) m = if text_eqb n m then Some v else find_option c m.
Proof.
  induction c as [|[k w] c IH]; simpl.
  - reflexivity.
  - destruct (text_eqb k n) eqn:E; simpl.
    + apply text_eqb_eq in E. subst. destruct (text_eqb n m); auto.
    + destruct (text_eqb k m) eqn:F; rewrite ?IH; auto.
      apply text_eqb_eq in F. subst. destruct (text_eqb n m) eqn:G; auto.
      apply text_eqb_eq in G. subst. apply text_eqb_neq in E. congruence.
Qed.

Lemma put_names c n v : map fst (put c n v) = if existsb (text_eqb n) (map fst c) then map fst c else map fst c ++ [n].
Proof.
  induction c as [|[k w] c IH]; simpl; auto.
  destruct (text_eqb k n) eqn:E; simpl.
  - apply text_eqb_eq in E. subst. rewrite (proj2 (text_eqb_eq n n) eq_refl). reflexivity.
  - assert (text_eqb n k = false) as ->.
    { apply text_eqb_neq. apply text_eqb_neq in E. congruence. }
    cbn [orb]. rewrite IH. destruct (existsb (text_eqb n) (map fst c)); reflexivity.
Qed.

Lemma NoDup_snoc {A} (l : list A) x : NoDup l -> ~ In x l -> NoDup (l ++ [x]).
Proof.
  intros N H. apply Permutation_NoDup with (x :: l).
  - apply Permutation_cons_append.
  - constructor; auto.
Qed.

Lemma put_nodup c n v : NoDup (map fst c) -> NoDup (map fst (put c n v)).
Proof.
  intros N. rewrite put_names. destruct (existsb (text_eqb n) (map fst c)) eqn:E; auto.
  apply NoDup_snoc; auto. intros H. assert (existsb (text_eqb n) (map fst c) = true).
  { apply existsb_exists. exists n. split; auto. apply text_eqb_eq; auto. }
  congruence.
Qed.

Lemma set_options_nodup ps c : NoDup (map fst c) -> NoDup (map fst (set_options c ps)).
Proof.
  revert c. induction ps as [|[n t] ps IH]; intros c N; auto. apply IH. apply put_nodup; auto.
Qed.

Lemma set_options_app a b c : set_options c (a ++ b) = set_options (set_options c a) b.
Proof. apply fold_left_app. Qed.

Lemma set_options_other ps c n : ~ In n (map fst ps) -> find_option (set_options c ps) n = find_option c n.
Proof.
  revert c. induction ps as [|[m t] ps IH]; intros c H; auto.
  change (find_option (set_options (set_option c m t) ps) n = find_option c n).
  rewrite IH by (simpl in H; tauto). unfold set_option. rewrite find_put.
  destruct (text_eqb m n) eqn:E; auto. apply text_eqb_eq in E. simpl in H. tauto.
Qed.

Lemma lookup_last c ps n t : last_given ps n t -> find_option (set_options c ps) n = Some (convert t).
Proof.
  intros (a & b & -> & N). rewrite set_options_app.
  change (set_options (set_options c a) ((n, t) :: b)) with (set_options (set_option (set_options c a) n t) b).
  rewrite set_options_other by auto. unfold set_option. rewrite find_put.
  rewrite (proj2 (text_eqb_eq n n) eq_refl). reflexivity.
Qed.

Lemma given_or_not (ps : list (text * text)) n : ~ In n (map fst ps) \/ exists t, last_given ps n t.
Proof.
  induction ps as [|[m t] ps IH]; [left; auto|].
  destruct IH as [H|[u (a & b & -> & N)]].
  - destruct (text_eqb m n) eqn:E.
    + apply text_eqb_eq in E. subst. right. exists t, [], ps. auto.
    + apply text_eqb_neq in E. left. simpl. tauto.
  - right. exists u, ((m, t) :: a), b. auto.
Qed.

Lemma lookup_spec ps n s : option_value (set_options [] ps) n = Some s <->
  exists t v, last_given ps n t /\ typed t v /\ s = as_string v.
Proof.
  unfold option_value. destruct (given_or_not ps n) as [H|[t H]].
  - rewrite set_options_other by auto. simpl. split; [discriminate|].
    intros (t & v & (a & b & -> & _) & _). exfalso. apply H. rewrite map_app. apply in_or_app. right. left. auto.
  - rewrite (lookup_last _ _ _ _ H). simpl. split.
    + intros E. injection E as <-. exists t, (convert t). repeat split; auto. apply convert_typed.
    + intros (t' & v & H' & Ty & ->). f_equal. f_equal. apply (lookup_last [] _ _ _) in H, H'.
      apply convert_spec in Ty. congruence.
Qed.

Lemma lookup_none ps n : option_value (set_options [] ps) n = None <-> ~ In n (map fst ps).
Proof.
  unfold option_value. destruct (given_or_not ps n) as [H|[t H]].
  - rewrite set_options_other by auto. simpl. tauto.
  - rewrite (lookup_last _ _ _ _ H). simpl. split; [discriminate|]. intros N. exfalso. apply N.
    destruct H as (a & b & -> & _). rewrite map_app. apply in_or_app. right. left. auto.
Qed.

(** ** Dumping and loading *)

Lemma find_in c n v : NoDup (map fst c) -> (find_option c n = Some v <-> In (n, v) c).
Proof.
  induction c as [|[m w] c IH]; simpl; intros N.
  - split; [discriminate|tauto].
  - inversion N as [|? ? N1 N2]; subst. destruct (text_eqb m n) eqn:E.
    + apply text_eqb_eq in E. subst. split.
      * intros H. injection H as ->. auto.
      * intros [H|H]; [congruence|]. exfalso. apply N1. apply in_map_iff. exists (n, v). auto.
    + apply text_eqb_neq in E. rewrite IH by auto. split; auto. intros [H|H]; auto. congruence.
Qed.

Lemma find_perm c d : NoDup (map fst c) -> Permutation c d -> same_options c d.
Proof.
  intros N P n. assert (N' : NoDup (map fst d)) by (eapply Permutation_NoDup; [apply Permutation_map; exact P|auto]).
  destruct (find_option c n) as [v|] eqn:E.
  - symmetry. apply find_in; auto. apply find_in in E; auto. eapply Permutation_in; eauto.
  - destruct (find_option d n) as [v|] eqn:F; auto. apply find_in in F; auto.
    apply Permutation_sym in P. eapply Permutation_in in F; [|exact P]. apply find_in in F; auto. congruence.
Qed.

Lemma put_new c n v : ~ In n (map fst c) -> put c n v = c ++ [(n, v)].
Proof.
  induction c as [|[m w] c IH]; simpl; auto. intros H.
  destruct (text_eqb m n) eqn:E; [apply text_eqb_eq in E; tauto|]. rewrite IH by tauto. reflexivity.
Qed.

Lemma load_fields_strings (fs : list (text * text)) c : NoDup (map fst c ++ map fst fs) ->
  load_fields (map (fun f => (fst f, JString (snd f))) fs) c =
  Some (c ++ map (fun f => (fst f, convert (snd f))) fs).
Proof.
  revert c. induction fs as [|[n t] fs IH]; intros c N.
  - simpl. rewrite app_nil_r. auto.
  - cbn [map load_fields fst snd]. unfold set_option. rewrite put_new.
    + rewrite IH.
      * rewrite <- app_assoc. reflexivity.
      * rewrite map_app, <- app_assoc. exact N.
    + simpl in N. apply NoDup_remove_2 in N. intros H. apply N. apply in_or_app. auto.
Qed.

(** A configuration as the class can contain it: distinct names, values that come
    from texts. *)
Definition proper (c : config) : Prop :=
  NoDup (map fst c) /\ Forall (fun o => convert (as_string (snd o)) = snd o) c.

Lemma put_forall (P : text * cvalue -> Prop) c n v : Forall P c -> P (n, v) -> Forall P (put c n v).
Proof.
  intros F Pn. induction F as [|[m w] c H F IH]; simpl; auto.
  destruct (text_eqb m n) eqn:E; auto. apply text_eqb_eq in E. subst. auto.
Qed.

Lemma set_options_proper ps : proper (set_options [] ps).
Proof.
  split; [apply set_options_nodup; constructor|].
  assert (forall c, Forall (fun o : text * cvalue => convert (as_string (snd o)) = snd o) c ->
    Forall (fun o : text * cvalue => convert (as_string (snd o)) = snd o) (set_options c ps)) as H.
  { induction ps as [|[n t] ps IH]; intros c F; auto. apply IH. apply put_forall; auto. apply convert_stable. }
  apply H. constructor.
Qed.

Lemma Permutation_map_inv' {A B} (f : A -> B) l l' : Permutation l' (map f l) ->
  exists k, l' = map f k /\ Permutation l k.
Proof.
  intros P. apply Permutation_sym in P. destruct (Permutation_map_inv f _ (Permutation_sym P)) as (k & -> & Q).
  exists k. split; auto.
Qed.

Lemma dump_load J ok order c : json_correct J ok -> (forall d, Permutation d (order d)) -> proper c ->
  Forall (fun o => ok (fst o) /\ ok (as_string (snd o))) c ->
  exists d, load J (dump J order c) = Some d /\ same_options d c /\
    forall order', (forall e, Permutation e (order' e)) -> dump J order' d = dump J order c.
Proof.
  intros JC Ord [N F] Ok.
  set (str := fun o : text * cvalue => (fst o, as_string (snd o))).
  assert (Nm : forall c, map fst (map str c) = map fst c).
  { intros e. rewrite map_map. apply map_ext. auto. }
  assert (Okf : forall e, Permutation c e -> Forall (fun f => ok (fst f) /\ ok (snd f)) (map str e)).
  { intros e P. apply Forall_map. eapply Permutation_Forall; [exact P|]. exact Ok. }
  assert (Nd : forall e, Permutation c e -> NoDup (map fst (map str e))).
  { intros e P. rewrite Nm. eapply Permutation_NoDup; [apply Permutation_map; exact P|auto]. }
  destruct (JC (map str (order c)) (Nd _ (Ord c)) (Okf _ (Ord c))) as [Inv (gs & Pg & Perm)].
  apply Permutation_map_inv' in Perm as (k & -> & Pk).
  apply Permutation_sym in Pk. apply Permutation_map_inv' in Pk as (d & -> & Pd).
  assert (Pcd : Permutation c d) by (eapply Permutation_trans; [apply Ord|exact Pd]).
  assert (Ld : load J (dump J order c) = Some d).
  { unfold load, dump. fold str. rewrite Pg. rewrite load_fields_strings by (simpl; apply Nd; auto).
    simpl. f_equal. rewrite map_map. rewrite <- (map_id d) at 2. apply map_ext_in.
    intros [n v] Hin. simpl. f_equal. eapply Permutation_in in Hin; [|apply Permutation_sym; exact Pcd].
    rewrite Forall_forall in F. apply (F _ Hin). }
  exists d. split; [exact Ld|]. split.
  - intros n. symmetry. apply find_perm; auto.
  - intros order' Ord'. unfold dump. fold str. symmetry. apply Inv. apply Permutation_map.
    eapply Permutation_trans; [apply Permutation_sym, Ord|]. eapply Permutation_trans; [exact Pcd|]. apply Ord'.
Qed.

Lemma iterate_mut_all c : iterate_mut c = c.
Proof. unfold iterate_mut, between, begin_mut, end_pos. rewrite Nat.sub_0_r. apply firstn_all. Qed.

Lemma iterate_const_none c : iterate_const c = [].
Proof. unfold iterate_const, between, begin_const, end_pos. rewrite Nat.sub_diag. reflexivity. Qed.

Lemma as_string_spec t :
  (typed t (VBool true) -> as_string (convert t) = T "true") /\
  (typed t (VBool false) -> as_string (convert t) = T "false") /\
  (forall z, typed t (VInt z) -> as_string (convert t) = print_Z z) /\
  (typed t (VStr t) -> as_string (convert t) = t).
Proof. repeat split; intros; match goal with H : typed _ _ |- _ => apply convert_spec in H; rewrite H end; reflexivity. Qed.

Lemma dump_load_sets J ok order ps : json_correct J ok -> (forall d, Permutation d (order d)) ->
  let c := set_options [] ps in
  Forall (fun o => ok (fst o) /\ ok (as_string (snd o))) c ->
  exists d, load J (dump J order c) = Some d /\ same_options d c /\
    forall order', (forall e, Permutation e (order' e)) -> dump J order' d = dump J order c.
Proof. intros JC O c F. eapply dump_load; eauto. apply set_options_proper. Qed.

Lemma load_fields_spec fs c d : load_fields fs c = Some d <->
  exists gs, fs = map (fun f => (fst f, JString (snd f))) gs /\ d = set_options c gs.
Proof.
  revert c. induction fs as [|[n v] fs IH]; intros c; simpl.
  - split.
    + intros H. injection H as <-. exists []. auto.
    + intros ([|g gs] & E & ->); [auto|discriminate].
  - destruct v as [t|l|].
    + rewrite IH. split.
      * intros (gs & -> & ->). exists ((n, t) :: gs). auto.
      * intros ([|[m u] gs] & E & ->); [discriminate|]. injection E as <- <- ->. exists gs. auto.
    + split; [discriminate|]. intros ([|g gs] & E & _); discriminate.
    + split; [discriminate|]. intros ([|g gs] & E & _); discriminate.
Qed.

Lemma load_spec J t c : load J t = Some c <->
  exists fs, j_parse J t = Some (JObject (map (fun f => (fst f, JString (snd f))) fs)) /\
    c = set_options [] fs.
Proof.
  unfold load. destruct (j_parse J t) as [[u|fs|]|].
  - split; [discriminate|]. intros (gs & E & _). discriminate.
  - rewrite load_fields_spec. split.
    + intros (gs & -> & ->). exists gs. auto.
    + intros (gs & E & ->). exists gs. split; congruence.
  - split; [discriminate|]. intros (gs & E & _). discriminate.
  - split; [discriminate|]. intros (gs & E & _). discriminate.
Qed.

Lemma iterate_both c : iterate_mut c = c /\ iterate_const c = [].
Proof. split; [apply iterate_mut_all|apply iterate_const_none]. Qed.

Lemma iterate_differ : exists c, iterate_const c <> iterate_mut c.
Proof. exists [(T "a", VBool true)]. discriminate. Qed.
