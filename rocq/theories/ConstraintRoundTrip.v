(** Printing a constraint and parsing the text. *)
From Coq Require Import List Ascii String ZArith NArith Arith Bool Lia ZifyBool ZifyNat.
From Verif Require Import Text NumSpec TextProofs LlvmInt LlvmIntProofs ConstraintModel ConstraintSpec
  ConstraintParserModel ConstraintTokenSpec ConstraintParserProofs ConstraintLexerProofs.
Import ListNotations.

(** ** Reading by single steps of the lexer *)

Lemma read_step sci s t n w : s <> [] -> munch s = (t, n) -> is_stop t = false ->
  reads (num_of sci) (skipn n s) w -> reads (num_of sci) s (opt_list (tok_sym sci t) ++ w).
Proof.
  intros N M S R.
  destruct (munch_spec sci s N) as [(c & r & -> & M' & _)|[(c & r & -> & M' & _)|(t' & p & r & -> & M' & _ & [Lx _] & Lg & _)]];
    rewrite M in M'; inversion M'; subst; try discriminate.
  rewrite skipn_app_exact in R. apply rd_unit; auto.
Qed.

Definition readable sci s := exists w, reads (num_of sci) s w.

Lemma readable_step sci s t n : munch s = (t, n) -> s <> [] -> is_stop t = false ->
  readable sci s -> readable sci (skipn n s).
Proof.
  intros M N S [w R].
  destruct (munch_spec sci s N) as [(c & r & -> & M' & _)|[(c & r & -> & M' & _)|(t' & p & r & -> & M' & _ & [Lx _] & Lg & NE)]];
    rewrite M in M'; inversion M'; subst; try discriminate.
  rewrite skipn_app_exact.
  inversion R as [E1 E2|c' r' End E1 E2|p' r' o w' Lx' Lg' R' E1 E2]; subst.
  - destruct p; [apply lexeme_nonempty in Lx; congruence|discriminate].
  - destruct p as [|d p]; [apply lexeme_nonempty in Lx; congruence|]. inversion E1; subst.
    exfalso. eapply NE; eauto.
  - destruct (longest_unique _ _ _ _ _ _ _ Lx' Lx Lg' Lg E1) as (-> & -> & ->). exists w'. auto.
Qed.

Lemma readable_error sci s v n : munch s = (TkError v, n) -> s <> [] -> ~ readable sci s.
Proof.
  intros M N [w R].
  destruct (munch_spec sci s N) as [(c & r & -> & M' & _)|[(c & r & -> & M' & NE & No)|(t' & p & r & -> & M' & S & [Lx _] & Lg & _)]];
    rewrite M in M'; inversion M'; subst; try discriminate.
  inversion R as [E1 E2|c' r' End E1 E2|p' r' o w' Lx' Lg' R' E1 E2]; subst; auto.
  eapply No; eauto.
Qed.

(** ** Units of printed constraints *)

(** What may follow a printed operand. *)
Definition rest_ok (r : text) : Prop :=
  match r with
  | [] => True
  | c :: _ => c = " "%char \/ c = ")"%char
  end.

(** First character of a printed operand. *)
Definition start_ok (r : text) : Prop :=
  match r with
  | [] => False
  | c :: _ => is_ws c = false /\ c <> "="%char
  end.

Lemma rest_ok_id r : rest_ok r -> head_fails is_idchar r.
Proof. destruct r as [|c r]; simpl; auto. intros [-> | ->]; reflexivity. Qed.
Lemma rest_ok_num r : rest_ok r -> head_fails is_numchar r.
Proof. destruct r as [|c r]; simpl; auto. intros [-> | ->]; reflexivity. Qed.

Lemma munch_open r : munch ("("%char :: r) = (TkLPar, 1).
Proof. reflexivity. Qed.
Lemma munch_close r : munch (")"%char :: r) = (TkRPar, 1).
Proof. reflexivity. Qed.
Lemma munch_tilde r : munch ("~"%char :: r) = (TkNeg, 1).
Proof. reflexivity. Qed.
Lemma munch_bang r : start_ok r -> munch ("!"%char :: r) = (TkNot, 1).
Proof.
  destruct r as [|c r]; [simpl; tauto|]. intros [_ N].
  change (munch ("!"%char :: c :: r)) with
    (if Ascii.eqb "!" "!" && (Ascii.eqb "=" c && true) then (TkNotEqual, 2) else (TkNot, 1)).
  destruct (Ascii.eqb "=" c) eqn:E; auto. apply Ascii.eqb_eq in E. congruence.
Qed.
Lemma munch_blank r : head_fails is_ws r -> munch (" "%char :: r) = (TkWs, 1).
Proof.
  intro H. change (munch (" "%char :: r)) with (TkWs, S (List.length (take_while is_ws r))).
  destruct r as [|c r]; auto. simpl in *. rewrite H. auto.
Qed.
Lemma start_ok_ws r : start_ok r -> head_fails is_ws r.
Proof. destruct r; simpl; tauto. Qed.

Lemma munch_name s r : identifier s -> rest_ok r -> munch (T s ++ r) = (TkId (T s), List.length (T s)).
Proof.
  intros (c & q & E & A & W & N) R.
  assert (F : forallb is_idchar (c :: q) = true).
  { simpl. unfold is_idchar at 1, is_alnum. rewrite A. simpl.
    apply (forallb_Forall is_idchar word_char); [apply is_idchar_word|auto]. }
  rewrite E. cbn [app munch]. unfold is_alpha in A. rewrite A. unfold munch_id.
  change (c :: q ++ r) with ((c :: q) ++ r). rewrite take_while_app; auto; [|apply rest_ok_id; auto].
  rewrite (proj2 (text_eqb_neq (c :: q) (T "or"))); auto.
  rewrite <- E. intro X. apply T_inj in X. auto.
Qed.

Lemma print_N_numchars n : forallb is_numchar (print_N n) = true.
Proof.
  pose proof (print_N_digits n) as D. rewrite forallb_forall in *. intros x I.
  unfold is_numchar. rewrite (D x I). auto.
Qed.

Lemma print_N_head n : exists c q, print_N n = c :: q /\ is_digit c = true.
Proof.
  pose proof (print_N_digits n) as D. pose proof (print_N_nonempty n) as N.
  destruct (print_N n) as [|c q]; [congruence|]. exists c, q. split; auto.
  simpl in D. apply andb_true_iff in D. tauto.
Qed.

Lemma munch_number n r : rest_ok r -> munch (print_N n ++ r) = (TkNum (print_N n), List.length (print_N n)).
Proof.
  intro R. destruct (print_N_head n) as (c & q & E & D).
  assert (M : munch (print_N n ++ r) = munch_num (print_N n ++ r)).
  { rewrite E. cbn [app munch].
    replace (is_lower c || is_upper c) with false
      by (unfold is_lower, is_upper, is_digit in *; lia).
    rewrite D. auto. }
  rewrite M. unfold munch_num.
  rewrite take_while_app; [|apply print_N_numchars|apply rest_ok_num; auto].
  rewrite lower_digits by apply print_N_digits. auto.
Qed.

Lemma parse_integer_print sci n : (Z.of_N n <= int64_max)%Z -> parse_integer sci (print_N n) = Z.of_N n.
Proof.
  intro L. unfold parse_integer. rewrite lower_digits by apply print_N_digits.
  replace (contains_char "e" (print_N n)) with false.
  - rewrite parse_plain_clamped. unfold clamped.
    pose proof (print_N_digits n) as D. pose proof (print_N_nonempty n) as N.
    assert (X : (if negb (text_eqb (print_N n) []) && forallb is_digit (print_N n)
                 then Z.min int64_max (Z.of_N (dec_value 0 (print_N n))) else int64_max) = Z.of_N n).
    { rewrite D, print_N_value. apply text_eqb_neq in N. rewrite N. simpl negb. cbv beta iota delta [andb]. lia. }
    destruct (print_N n) as [|c q]; auto.
    destruct (Ascii.eqb c "-") eqn:C.
    + apply Ascii.eqb_eq in C. subst c. discriminate.
    + destruct c as [[] [] [] [] [] [] [] []]; try exact X. discriminate.
  - symmetry. unfold contains_char. pose proof (print_N_digits n) as D.
    induction (print_N n) as [|c q IH]; auto. cbn [existsb forallb] in *.
    apply andb_true_iff in D as [D1 D2]. rewrite IH by auto. rewrite orb_false_r.
    rewrite eqb_code. change (code "e") with 101. unfold is_digit in D1. lia.
Qed.

(** ** Symbols of a printed constraint *)

Definition op_syms (o : binop) : list sym :=
  match o with
  | BExcludes => [SInf BImplies; SPre UNot]
  | o => [SInf o]
  end.

Fixpoint print_syms (c : cexpr string) : list sym :=
  match c with
  | CBin o l r => SOpen :: print_syms l ++ op_syms o ++ print_syms r ++ [SClose]
  | CUn o e => SPre o :: print_syms e
  | CInt n => [SNum n]
  | CFeat s => [SName s]
  end.

Definition show (c : cexpr string) : text := to_string (fun s => s) c.

Lemma start_name s r : identifier s -> start_ok (T s ++ r).
Proof.
  intros (c & q & E & A & _). rewrite E. simpl. split.
  - unfold is_alpha, is_lower, is_upper, is_ws in *. lia.
  - intros ->. discriminate.
Qed.

Lemma start_number n r : start_ok (print_N n ++ r).
Proof.
  destruct (print_N_head n) as (c & q & E & D). rewrite E. simpl. split.
  - unfold is_digit, is_ws in *. lia.
  - intros ->. discriminate.
Qed.

Lemma start_show c r : identifiers_only c -> start_ok (show c ++ r).
Proof.
  destruct c as [o a b|o e|n|s]; intro H; cbn [show to_string].
  - simpl. split; [reflexivity|discriminate].
  - destruct o; simpl; split; (reflexivity || discriminate).
  - destruct n; cbn [print_Z]; try apply start_number. simpl. split; [reflexivity|discriminate].
  - apply start_name; auto.
Qed.

Lemma expressible_ids c : expressible c -> identifiers_only c.
Proof. induction c; simpl; try tauto. Qed.

Lemma reads_cons sci s t n w w' : s <> [] -> munch s = (t, n) -> is_stop t = false ->
  reads (num_of sci) (skipn n s) w -> w' = opt_list (tok_sym sci t) ++ w -> reads (num_of sci) s w'.
Proof. intros N M S R ->. eapply read_step; eauto. Qed.

Lemma reads_blank sci r w : head_fails is_ws r -> reads (num_of sci) r w ->
  reads (num_of sci) (" "%char :: r) w.
Proof.
  intros H R. apply (read_step sci (" "%char :: r) TkWs 1 w); auto; [discriminate|apply munch_blank; auto].
Qed.

(** Operators between blanks. *)
Lemma munch_infix o r : o <> BXor -> o <> BDiv -> o <> BExcludes ->
  exists op t, binop_text o = " "%char :: op ++ [" "%char] /\ head_fails is_ws (op ++ " "%char :: r) /\
    munch (op ++ " "%char :: r) = (t, List.length op) /\ is_stop t = false /\ op <> [] /\
    forall sci, tok_sym sci t = Some (SInf o).
Proof.
  intros N1 N2 N3.
  destruct o; try congruence.
  1: exists (T "|"), TkOr.
  2: exists (T "&"), TkAnd.
  3: exists (T "="), TkEqual.
  4: exists (T "!="), TkNotEqual.
  5: exists (T "=>"), TkImplies.
  6: exists (T "<=>"), TkEquivalent.
  7: exists (T "+"), TkPlus.
  8: exists (T "-"), TkMinus.
  9: exists (T "*"), TkStar.
  10: exists (T "<"), TkLess.
  11: exists (T ">"), TkGreater.
  12: exists (T "<="), TkLessEqual.
  13: exists (T ">="), TkGreaterEqual.
  all: repeat split; try reflexivity; discriminate.
Qed.

Lemma read_infix sci o r w :
  o <> BXor -> o <> BDiv -> start_ok r -> reads (num_of sci) r w ->
  reads (num_of sci) (binop_text o ++ r) (op_syms o ++ w).
Proof.
  intros N1 N2 S R. destruct (match o with BExcludes => true | _ => false end) eqn:X.
  - destruct o; try discriminate. cbn [op_syms binop_text].
    change (T " => !" ++ r) with (" "%char :: T "=> !" ++ r).
    apply reads_blank; [reflexivity|]. change (T "=> !" ++ r) with ("="%char :: ">"%char :: " "%char :: "!"%char :: r).
    eapply (reads_cons sci _ TkImplies 2); [discriminate|reflexivity|reflexivity| |reflexivity].
    cbn [skipn].
    apply reads_blank; [reflexivity|].
    eapply reads_cons; [discriminate|apply munch_bang; auto|reflexivity| |reflexivity].
    exact R.
  - assert (N3 : o <> BExcludes) by (intros ->; discriminate).
    destruct (munch_infix o r N1 N2 N3) as (op & t & E & H & M & St & NE & Sy).
    replace (op_syms o) with [SInf o] by (destruct o; auto; discriminate).
    rewrite E. cbn [app]. rewrite <- app_assoc. cbn [app].
    apply reads_blank; auto.
    eapply reads_cons; [destruct op; [congruence|discriminate]|exact M|auto| |].
    2: rewrite Sy; reflexivity.
    rewrite skipn_app_exact.
    apply reads_blank; auto. apply start_ok_ws; auto.
Qed.

Lemma rest_ok_binop o r : rest_ok (binop_text o ++ r).
Proof. destruct o; simpl; auto. Qed.

Lemma read_show sci c : expressible c -> forall r w, rest_ok r -> reads (num_of sci) r w ->
  reads (num_of sci) (show c ++ r) (print_syms c ++ w).
Proof.
  induction c as [o a IHa b IHb|o e IH|n|s]; intros H r w Rk R; cbn [show to_string print_syms].
  - destruct H as (N1 & N2 & Ha & Hb).
    cbn [app]. rewrite <- !app_assoc. cbn [app].
    eapply reads_cons; [discriminate|apply munch_open|reflexivity| |reflexivity].
    cbn [skipn]. apply IHa; auto; [apply rest_ok_binop|].
    apply read_infix; auto.
    { apply start_show. apply expressible_ids; auto. }
    apply IHb; auto; [simpl; auto|].
    eapply reads_cons; [discriminate|apply munch_close|reflexivity| |reflexivity]. exact R.
  - cbn [app]. destruct o.
    + eapply reads_cons; [discriminate|apply munch_bang|reflexivity| |reflexivity].
      { apply start_show. apply expressible_ids; auto. }
      cbn [skipn]. apply IH; auto.
    + eapply reads_cons; [discriminate|apply munch_tilde|reflexivity| |reflexivity].
      cbn [skipn]. apply IH; auto.
  - cbn [expressible] in H. rewrite print_Z_nonneg by lia.
    eapply reads_cons; [|apply munch_number; auto|reflexivity| |].
    { destruct (print_N_head (Z.to_N n)) as (c & q & E & _). rewrite E. discriminate. }
    { rewrite skipn_app_exact. exact R. }
    cbn [tok_sym opt_list]. rewrite parse_integer_print by lia. rewrite Z2N.id by lia. reflexivity.
  - eapply reads_cons; [|apply munch_name; auto|reflexivity| |].
    { destruct H as (c & q & E & _). rewrite E. discriminate. }
    { rewrite skipn_app_exact. exact R. }
    cbn [tok_sym opt_list]. rewrite U_T. reflexivity.
Qed.

Lemma spells_show c : unary (print_syms c) (excludes_as_implies c).
Proof.
  induction c as [o a IHa b IHb|o e IH|n|s]; cbn [print_syms].
  - replace (print_syms a ++ op_syms o ++ print_syms b ++ [SClose])
      with ((print_syms a ++ op_syms o ++ print_syms b) ++ [SClose]) by (rewrite <- !app_assoc; auto).
    destruct (match o with BExcludes => true | _ => false end) eqn:X.
    + destruct o; try discriminate. cbn [excludes_as_implies op_syms app].
      apply u_par. apply e_inf; [simpl; lia|apply e_unary; auto|apply e_unary; apply u_pre; auto].
    + replace (excludes_as_implies (CBin o a b)) with (CBin o (excludes_as_implies a) (excludes_as_implies b))
        by (destruct o; auto; discriminate).
      replace (op_syms o) with [SInf o] by (destruct o; auto; discriminate).
      apply u_par. apply e_inf; [pose proof (level_bound o); lia|apply e_unary; auto|apply e_unary; auto].
  - apply u_pre; auto.
  - apply u_num.
  - apply u_name.
Qed.

(** ** Words only contain what texts can spell *)

Fixpoint tree_ok (P : Z -> Prop) (c : cexpr string) : Prop :=
  match c with
  | CBin o l r => o <> BXor /\ o <> BDiv /\ o <> BExcludes /\ tree_ok P l /\ tree_ok P r
  | CUn _ e => tree_ok P e
  | CInt n => P n
  | CFeat s => identifier s
  end.

Definition sym_ok (P : Z -> Prop) (s : sym) : Prop :=
  match s with
  | SNum n => P n
  | SName s => identifier s
  | SInf o => o <> BXor /\ o <> BDiv /\ o <> BExcludes
  | _ => True
  end.

Lemma spelled_ok P :
  (forall w c, unary w c -> Forall (sym_ok P) w -> tree_ok P c) /\
  (forall p w c, expr p w c -> Forall (sym_ok P) w -> tree_ok P c).
Proof.
  apply unary_expr_ind.
  - intros n F. inversion F; auto.
  - intros s F. inversion F; auto.
  - intros o w c H IH F. inversion F; subst. simpl; auto.
  - intros w c H IH F. inversion F; subst. apply Forall_app in H3 as [F1 _]. auto.
  - intros p w c H IH F. auto.
  - intros p o wl wr l r L Hl IHl Hr IHr F. apply Forall_app in F as [F1 F2]. inversion F2; subst.
    simpl in *. tauto.
Qed.

Lemma reads_ok sci (P : Z -> Prop) s w :
  (forall c r, is_digit c = true -> Forall number_char r -> P (literal_value sci (c :: r))) ->
  reads (literal_value sci) s w -> Forall (sym_ok P) w.
Proof.
  intros HP H. induction H as [|c r E|p r o w Lx Lg R IH]; auto.
  apply Forall_app. split; auto.
  destruct Lx as [p' N B|c r' A W Nor|c r' D N|p' s I]; cbn [opt_list]; constructor; auto.
  - cbn [sym_ok]. exists c, r'. rewrite T_U. repeat split; auto. intro X.
    apply Nor. rewrite <- X, T_U. reflexivity.
  - cbn [sym_ok]. auto.
  - repeat (destruct I as [I|I]; [inversion I; subst; cbn [sym_ok]; try exact Logic.I; repeat split; discriminate|]).
    destruct I.
Qed.

Lemma clamped_range t : (int64_min <= clamped t <= int64_max)%Z.
Proof.
  unfold clamped.
  assert (X : forall d : text, (int64_min <= (if negb (text_eqb d []) && forallb is_digit d
      then Z.max int64_min (- Z.of_N (dec_value 0 d)) else int64_min) <= int64_max)%Z).
  { intro d. pose proof (N2Z.is_nonneg (dec_value 0 d)). destruct (_ && _); change int64_min with (-9223372036854775808)%Z; change int64_max with 9223372036854775807%Z; lia. }
  assert (Y : forall d : text, (int64_min <= (if negb (text_eqb d []) && forallb is_digit d
      then Z.min int64_max (Z.of_N (dec_value 0 d)) else int64_max) <= int64_max)%Z).
  { intro d. pose proof (N2Z.is_nonneg (dec_value 0 d)). destruct (_ && _); change int64_min with (-9223372036854775808)%Z; change int64_max with 9223372036854775807%Z; lia. }
  destruct t as [|c t]; [apply Y|].
  destruct c as [[] [] [] [] [] [] [] []]; try apply Y. apply X.
Qed.

Lemma clamped_nonneg t : starts_with (T "-") t = false -> (0 <= clamped t <= int64_max)%Z.
Proof.
  intro S. pose proof (clamped_range t) as [_ R]. split; auto. clear R. unfold clamped.
  assert (Y : forall d : text, (0 <= (if negb (text_eqb d []) && forallb is_digit d
      then Z.min int64_max (Z.of_N (dec_value 0 d)) else int64_max))%Z).
  { intro d. pose proof (N2Z.is_nonneg (dec_value 0 d)). destruct (_ && _); change int64_max with 9223372036854775807%Z; lia. }
  destruct t as [|c t]; [apply Y|].
  destruct c as [[] [] [] [] [] [] [] []]; try apply Y. discriminate.
Qed.

(** The floating point path never makes a literal negative. *)
Definition sci_nonneg (sci : text -> option text) : Prop :=
  forall t d, sci t = Some d -> starts_with (T "-") t = false -> starts_with (T "-") d = false.

Lemma literal_nonneg sci c r : sci_nonneg sci -> is_digit c = true ->
  (0 <= literal_value sci (c :: r) <= int64_max)%Z.
Proof.
  intros H D.
  assert (NM : starts_with (T "-") (c :: r) = false).
  { cbn [starts_with T list_ascii_of_string]. rewrite andb_true_r. rewrite eqb_code. change (code "-") with 45. unfold is_digit in D. lia. }
  unfold literal_value. destruct (existsb _ _).
  - destruct (sci (lower (c :: r))) as [d|] eqn:E; [|change int64_max with 9223372036854775807%Z; lia].
    apply clamped_nonneg. apply (H _ _ E).
    cbn [lower map]. rewrite to_lower_id by (apply is_digit_not_upper; auto). exact NM.
  - apply clamped_nonneg; auto.
Qed.

Lemma tree_ok_expressible c :
  tree_ok (fun n => (0 <= n <= int64_max)%Z) (excludes_as_implies c) -> expressible c.
Proof.
  induction c as [o a IHa b IHb|o e IH|n|s]; auto.
  intro H.
  assert (X : o <> BXor /\ o <> BDiv /\ tree_ok (fun n => (0 <= n <= int64_max)%Z) (excludes_as_implies a) /\
              tree_ok (fun n => (0 <= n <= int64_max)%Z) (excludes_as_implies b)).
  { destruct o; simpl in H; intuition congruence. }
  simpl. tauto.
Qed.

Theorem round_trip sci c : sci_nonneg sci ->
  (parse_text sci (show c) = Parsed (excludes_as_implies c) <-> expressible c).
Proof.
  intro HS. split.
  - intro H. destruct (show c) as [|a q] eqn:E; [discriminate|].
    rewrite parse_text_spec in H by discriminate. destruct H as (w & R & S).
    apply tree_ok_expressible.
    eapply (proj2 (spelled_ok _)); [exact S|].
    eapply reads_ok; eauto. intros; apply literal_nonneg; auto.
  - intro H.
    assert (N : show c <> []).
    { pose proof (start_show c [] (expressible_ids c H)) as St. rewrite app_nil_r in St.
      destruct (show c); [elim St|discriminate]. }
    apply parse_text_spec; auto. exists (print_syms c). split.
    + apply reads_literal. rewrite <- (app_nil_r (show c)), <- (app_nil_r (print_syms c)).
      apply read_show; auto; [exact I|constructor].
    + apply e_unary. apply spells_show.
Qed.

Lemma truth_b2z b : truth (b2z b) = b.
Proof. destruct b; reflexivity. Qed.

Theorem excludes_as_implies_value {F} (env : F -> Z) c : value env (excludes_as_implies c) = value env c.
Proof.
  induction c as [o a IHa b IHb|o e IH|n|s]; auto.
  - destruct o; cbn [excludes_as_implies value]; rewrite ?IHa, ?IHb; auto.
    rewrite truth_b2z. destruct (truth (value env a)), (truth (value env b)); reflexivity.
  - destruct o; cbn [excludes_as_implies value]; rewrite IH; auto.
Qed.

(** ** Rejected operators *)

Lemma readable_infix sci o r : start_ok r -> readable sci (binop_text o ++ r) ->
  o <> BXor /\ o <> BDiv /\ readable sci r.
Proof.
  intros S R.
  assert (E : exists q, binop_text o = " "%char :: q /\ head_fails is_ws (q ++ r)).
  { destruct o; eexists; split; reflexivity. }
  destruct E as (q & E & Hq).
  assert (R1 : readable sci (q ++ r)).
  { rewrite E in R. cbn [app] in R.
    apply (readable_step sci _ TkWs 1 (munch_blank _ Hq)) in R; [exact R|discriminate|reflexivity]. }
  assert (NX : o <> BXor).
  { intros ->. inversion E; subst. revert R1.
    apply (readable_error sci ("^"%char :: " "%char :: r) ["^"%char] 1); [reflexivity|discriminate]. }
  assert (ND : o <> BDiv).
  { intros ->. inversion E; subst. revert R1.
    apply (readable_error sci ("/"%char :: " "%char :: r) ["/"%char] 1); [reflexivity|discriminate]. }
  split; auto. split; auto.
  destruct (match o with BExcludes => true | _ => false end) eqn:X.
  - destruct o; try discriminate. inversion E; subst. clear E.
    change (readable sci ("="%char :: ">"%char :: " "%char :: "!"%char :: r)) in R1.
    apply (readable_step sci _ TkImplies 2) in R1; [|reflexivity|discriminate|reflexivity]. cbn [skipn] in R1.
    apply (readable_step sci _ TkWs 1) in R1; [|apply munch_blank; reflexivity|discriminate|reflexivity]. cbn [skipn] in R1.
    apply (readable_step sci _ TkNot 1) in R1; [|apply munch_bang; auto|discriminate|reflexivity]. exact R1.
  - assert (N3 : o <> BExcludes) by (intros ->; discriminate).
    destruct (munch_infix o r NX ND N3) as (op & t & E' & H & M & St & NE & Sy).
    rewrite E in E'. inversion E'; subst q. rewrite <- app_assoc in R1. cbn [app] in R1.
    apply (readable_step sci _ _ _ M) in R1; [|destruct op; [congruence|discriminate]|auto].
    rewrite skipn_app_exact in R1.
    apply (readable_step sci _ TkWs 1) in R1; [exact R1| |discriminate|reflexivity].
    apply munch_blank. apply start_ok_ws; auto.
Qed.

Lemma readable_show sci c : identifiers_only c -> forall r, rest_ok r ->
  readable sci (show c ++ r) -> readable sci r /\ ~ has_xor_or_div c.
Proof.
  induction c as [o a IHa b IHb|o e IH|n|s]; intros H r Rk R; cbn [show to_string] in R.
  - destruct H as (Ha & Hb).
    cbn [app] in R. rewrite <- !app_assoc in R. cbn [app] in R.
    apply (readable_step sci _ TkLPar 1 (munch_open _)) in R; [|discriminate|reflexivity]. cbn [skipn] in R.
    apply IHa in R as [R Xa]; auto; [|apply rest_ok_binop].
    apply readable_infix in R as (N1 & N2 & R).
    2: { apply start_show; auto. }
    apply IHb in R as [R Xb]; auto; [|simpl; auto].
    apply (readable_step sci _ TkRPar 1 (munch_close _)) in R; [|discriminate|reflexivity]. cbn [skipn] in R.
    split; auto. simpl. tauto.
  - cbn [app] in R. destruct o.
    + apply (readable_step sci _ TkNot 1) in R; [|apply munch_bang|discriminate|reflexivity].
      * apply IH in R; auto.
      * apply start_show; auto.
    + apply (readable_step sci _ TkNeg 1 (munch_tilde _)) in R; [|discriminate|reflexivity].
      apply IH in R; auto.
  - assert (G : forall k, readable sci (print_N k ++ r) -> readable sci r).
    { intros k Rr. apply (readable_step sci _ _ _ (munch_number k r Rk)) in Rr; [|destruct (print_N_head k) as (c & q & E & _); rewrite E; discriminate|reflexivity].
      rewrite skipn_app_exact in Rr. auto. }
    split; [|simpl; auto].
    destruct n as [|p|p]; cbn [print_Z] in R; eauto.
    cbn [app] in R. eapply (G (N.pos p)).
    apply (readable_step sci _ TkMinus 1) in R; [exact R| |discriminate|reflexivity].
    destruct (print_N_head (N.pos p)) as (c & q & E & D). rewrite E.
    change (munch ("-"%char :: (c :: q) ++ r)) with
      (if Ascii.eqb "-" "-" && (Ascii.eqb ">" c && true) then (TkImplies, 2) else (TkMinus, 1)).
    destruct (Ascii.eqb ">" c) eqn:X; auto. apply Ascii.eqb_eq in X. subst c. discriminate.
  - split; [|simpl; auto].
    apply (readable_step sci _ _ _ (munch_name s r H Rk)) in R; [|destruct H as (c & q & E & _); rewrite E; discriminate|reflexivity].
    rewrite skipn_app_exact in R. auto.
Qed.

Theorem xor_div_rejected sci c : identifiers_only c -> has_xor_or_div c ->
  parse_text sci (show c) = Rejected.
Proof.
  intros H X.
  assert (N : show c <> []).
  { pose proof (start_show c [] H) as St. rewrite app_nil_r in St.
    destruct (show c); [elim St|discriminate]. }
  destruct (parse_text_total sci (show c) N) as [E|[d E]]; auto.
  exfalso. apply parse_text_spec in E; auto. destruct E as (w & R & _). apply reads_literal in R.
  destruct (readable_show sci c H []) as [_ K]; [exact I|rewrite app_nil_r; exists w; auto|auto].
Qed.

(** ** Literals *)

Lemma parse_literal sci c r : is_digit c = true -> Forall number_char r ->
  parse_text sci (c :: r) = Parsed (CInt (literal_value sci (c :: r))).
Proof.
  intros D F. apply parse_text_spec; [discriminate|].
  exists [SNum (literal_value sci (c :: r))]. split; [|apply e_unary, u_num].
  rewrite <- (app_nil_r (c :: r)) at 1.
  change [SNum (literal_value sci (c :: r))] with (opt_list (Some (SNum (literal_value sci (c :: r)))) ++ []).
  apply rd_unit; [apply (lx_num (literal_value sci)); auto| |constructor].
  intros p o q E _. rewrite app_nil_r in E. rewrite E. rewrite app_length. lia.
Qed.

Lemma digit_number_char c : is_digit c = true -> number_char c.
Proof. left; auto. Qed.

Lemma clamped_dec t : decimal t -> clamped t = Z.min int64_max (Z.of_N (dec_value 0 t)).
Proof.
  intros [N D]. unfold clamped.
  assert (X : (if negb (text_eqb t []) && forallb is_digit t
               then Z.min int64_max (Z.of_N (dec_value 0 t)) else int64_max) =
              Z.min int64_max (Z.of_N (dec_value 0 t))).
  { rewrite D. apply text_eqb_neq in N. rewrite N. reflexivity. }
  destruct t as [|c q]; auto.
  destruct c as [[] [] [] [] [] [] [] []]; try exact X. discriminate.
Qed.

Lemma no_exponent t : (forall c, In c t -> is_digit c = true \/ c = "+"%char \/ c = "-"%char) ->
  existsb (fun c => Ascii.eqb c "e" || Ascii.eqb c "E") t = false.
Proof.
  intro H. induction t as [|c t IH]; auto. cbn [existsb]. rewrite IH by (intros; apply H; simpl; auto).
  rewrite orb_false_r. destruct (H c (or_introl eq_refl)) as [D|[-> | ->]]; try reflexivity.
  rewrite !eqb_code. change (code "e") with 101. change (code "E") with 69. unfold is_digit in D. lia.
Qed.

Lemma parse_decimal sci t : decimal t ->
  parse_text sci t = Parsed (CInt (Z.min int64_max (Z.of_N (dec_value 0 t)))).
Proof.
  intro H. destruct H as [N D]. destruct t as [|c r] eqn:Et; [congruence|]. rewrite <- Et in *.
  assert (D' := D). rewrite forallb_forall in D'.
  rewrite Et at 1. rewrite parse_literal.
  - rewrite <- Et. unfold literal_value. rewrite no_exponent by (intros; left; auto).
    rewrite clamped_dec; [auto|split; auto].
  - apply D'. subst; simpl; auto.
  - apply Forall_forall. intros x I. left. apply D'. subst; simpl; auto.
Qed.

Lemma parse_glued sci d o r : decimal d -> o = "+"%char \/ o = "-"%char -> decimal r ->
  parse_text sci (d ++ o :: r) = Parsed (CInt int64_max).
Proof.
  intros [Nd Dd] Ho [Nr Dr]. rewrite forallb_forall in Dd, Dr.
  destruct d as [|c d]; [congruence|]. cbn [app].
  assert (Dc : is_digit c = true) by (apply Dd; simpl; auto).
  assert (G : forall x, In x (c :: d ++ o :: r) -> is_digit x = true \/ x = "+"%char \/ x = "-"%char).
  { intros x [<-|I]; auto. apply in_app_or in I as [I|[<-|I]]; auto. left; apply Dd; simpl; auto. }
  rewrite parse_literal; auto.
  - unfold literal_value. rewrite no_exponent by auto. unfold clamped.
    assert (X : (if negb (text_eqb (c :: d ++ o :: r) []) && forallb is_digit (c :: d ++ o :: r)
                 then Z.min int64_max (Z.of_N (dec_value 0 (c :: d ++ o :: r))) else int64_max) = int64_max).
    { replace (forallb is_digit (c :: d ++ o :: r)) with false; [rewrite andb_false_r; auto|].
      symmetry. apply not_true_is_false. intro F. rewrite forallb_forall in F.
      assert (Fo : is_digit o = true) by (apply F; right; apply in_or_app; right; left; auto).
      destruct Ho; subst o; discriminate. }
    destruct c as [[] [] [] [] [] [] [] []]; try (rewrite X; reflexivity). discriminate.
  - apply Forall_forall. intros x I. destruct (G x (or_intror I)) as [E|[-> | ->]].
    + left; auto.
    + right; simpl; auto.
    + right; simpl; auto.
Qed.

(** Decision procedure for the examples. *)
Definition identifierb (s : string) : bool :=
  match T s with
  | [] => false
  | c :: r => is_alpha c && forallb is_idchar r && negb (text_eqb (c :: r) (T "or"))
  end.

Lemma identifierb_ok s : identifierb s = true -> identifier s.
Proof.
  unfold identifierb. destruct (T s) as [|c r] eqn:E; [discriminate|]. intro H.
  apply andb_true_iff in H as [H N]. apply andb_true_iff in H as [A F].
  exists c, r. repeat split; auto.
  - apply (forallb_Forall is_idchar word_char); [apply is_idchar_word|auto].
  - intros ->. rewrite <- E in N. discriminate.
Qed.
