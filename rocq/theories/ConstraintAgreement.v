(** The builder and the parser agree. *)
From Coq Require Import List Ascii String ZArith Arith Bool Lia.
From Verif Require Import Text NumSpec ConstraintModel ConstraintSpec ConstraintParserModel
  ConstraintParserProofs ConstraintLexerProofs ConstraintMachine
  ConstraintBuilderModel ConstraintBuilderSpec ConstraintBuilderProofs.
Import ListNotations.

Lemma reads_fun sci s w w' : s <> [] ->
  reads (literal_value sci) s w -> reads (literal_value sci) s w' -> w = w'.
Proof.
  intros N R R'. destruct (tokenize_lexed s N) as (ts & _ & L).
  apply reads_literal in R. apply reads_literal in R'.
  apply (lexed_reads sci _ _ _ L) in R as (b & E & Nb & <-).
  apply (lexed_reads sci _ _ _ L) in R' as (b' & E' & Nb' & <-).
  rewrite E in E'. apply app_inj_tail in E' as [-> _]. reflexivity.
Qed.

Lemma parser_builder sci s w c : s <> [] -> reads (literal_value sci) s w ->
  (parse_text sci s = Parsed c <-> chain (map KSym w) = Built (map_leaves Some c)).
Proof.
  intros N R. rewrite (parse_text_spec sci s c N), chain_spec. split.
  - intros (w' & R' & H). rewrite (reads_fun _ _ _ _ N R R'). exists w', c.
    split; [apply spelled_plain|auto].
  - intros (w' & t & H & Ht & E). apply map_leaves_inj in E; [|congruence]. subst t.
    rewrite (spelled_fun _ _ _ H (spelled_plain w)) in Ht. eauto.
Qed.

Lemma parser_builder_fail sci s w : s <> [] -> reads (literal_value sci) s w ->
  (parse_text sci s = Rejected <-> chain (map KSym w) = BuiltNull).
Proof.
  intros N R. pose proof (fun c => parser_builder sci s w c N R) as H.
  destruct (parse_text_total sci s N) as [E|[c E]]; destruct (chain_safe (map KSym w)) as [E'|[c' E']].
  - tauto.
  - exfalso. apply chain_spec in E' as E2. destruct E2 as (w' & t & _ & _ & ->).
    apply H in E'. congruence.
  - exfalso. apply H in E. congruence.
  - rewrite E, E'. split; discriminate.
Qed.

(** Blanks end every unit that denotes a symbol. *)
Lemma fixed_no_blank : Forall (fun e => forallb (fun c => negb (existsb (Nat.eqb (code c)) [32;9;13;10])) (T (fst e)) = true
   /\ T (fst e) <> []) fixed_spellings.
Proof. unfold fixed_spellings. repeat constructor; try reflexivity; discriminate. Qed.

Lemma blank_dec c : blank c <-> existsb (Nat.eqb (code c)) [32;9;13;10] = true.
Proof.
  unfold blank. rewrite existsb_exists. split.
  - intros H. exists (code c). split; auto. apply Nat.eqb_refl.
  - intros (x & I & E). apply Nat.eqb_eq in E. congruence.
Qed.

Lemma word_not_blank c : word_char c -> ~ blank c.
Proof.
  intros [H| ->] B; [|vm_compute in B; intuition discriminate].
  unfold blank in B. unfold is_alnum, is_alpha, is_digit, is_lower, is_upper in H.
  simpl in B.
  rewrite !orb_true_iff, !andb_true_iff, !Nat.leb_le in H.
  intuition lia.
Qed.

Lemma alpha_word c : is_alpha c = true -> word_char c.
Proof. intros H. left. unfold is_alnum. rewrite H. auto. Qed.

Lemma digit_number c : is_digit c = true -> number_char c.
Proof. left; auto. Qed.

Lemma number_not_blank c : number_char c -> ~ blank c.
Proof.
  intros [H|H] B.
  - apply (word_not_blank c); auto. left. unfold is_alnum. rewrite H. apply orb_true_r.
  - simpl in H. destruct H as [<-|[<-|[<-|[<-|[]]]]]; vm_compute in B; intuition discriminate.
Qed.

Lemma lexeme_no_blank num p s : lexeme num p (Some s) -> p <> [] /\ Forall (fun c => ~ blank c) p.
Proof.
  intros H. inversion H as [|c r A W N E1 E2|c r A W E1 E2|q s' I E1 E2]; subst.
  - split; [discriminate|]. constructor; [apply word_not_blank, alpha_word; auto|].
    eapply Forall_impl; [|exact W]. apply word_not_blank.
  - split; [discriminate|]. constructor; [apply number_not_blank, digit_number; auto|].
    eapply Forall_impl; [|exact W]. apply number_not_blank.
  - pose proof fixed_no_blank as F. rewrite Forall_forall in F. destruct (F _ I) as [F1 F2]. cbn [fst] in *.
    split; auto. rewrite forallb_forall in F1. apply Forall_forall. intros c Ic B.
    apply F1 in Ic. apply blank_dec in B. rewrite B in Ic. discriminate.
Qed.

Lemma lexeme_blank num p : lexeme num p None -> p <> [] /\ Forall blank p.
Proof. inversion 1; auto. Qed.

Lemma prefix_app {A} (p p' r r' : list A) : p ++ r = p' ++ r' -> List.length p < List.length p' ->
  exists q, q <> [] /\ p' = p ++ q /\ r = q ++ r'.
Proof.
  revert p'. induction p as [|a p IH]; simpl; intros p' E L.
  - exists p'. repeat split; auto. intros ->. simpl in L. lia.
  - destruct p' as [|b p']; simpl in *; [lia|]. injection E as <- E.
    destruct (IH p' E) as (q & N & -> & ->); [lia|]. exists q. auto.
Qed.

Lemma longest_before_blank num p s r : lexeme num p (Some s) -> longest num p (p ++ " "%char :: r).
Proof.
  intros H p' o r' E H'. destruct (le_lt_dec (List.length p') (List.length p)) as [L|L]; auto. exfalso.
  destruct (prefix_app _ _ _ _ E L) as (q & N & -> & Eq).
  destruct q as [|c q]; [congruence|]. injection Eq as <- _.
  destruct (lexeme_no_blank _ _ _ H) as [Np Fp].
  destruct o as [s'|].
  - apply lexeme_no_blank in H' as [_ F]. apply Forall_app in F as [_ F]. inversion F as [|? ? NB _]; subst.
    apply NB. vm_compute. auto.
  - apply lexeme_blank in H' as [_ F]. apply Forall_app in F as [F _].
    destruct p as [|c p]; [congruence|]. inversion F; inversion Fp; subst. auto.
Qed.

Lemma reads_spaced num ps w : Forall2 (fun p s => lexeme num p (Some s)) ps w -> reads num (spaced ps) w.
Proof.
  induction 1 as [|p s ps w H F IH]; simpl; [constructor|].
  change (s :: w) with (opt_list (Some s) ++ w). apply rd_unit; auto.
  - eapply longest_before_blank; eauto.
  - change (" "%char :: spaced ps) with ([" "%char] ++ spaced ps).
    change w with (opt_list (@None sym) ++ w). apply rd_unit; auto.
    + apply lx_blank; [discriminate|]. constructor; [|constructor]. vm_compute; auto.
    + intros p' o r' E H'. destruct (le_lt_dec (List.length p') 1) as [L|L]; auto. exfalso.
      destruct (prefix_app [" "%char] p' _ _ E L) as (q & N & -> & Eq).
      destruct o as [s'|].
      * apply lexeme_no_blank in H' as [_ F']. simpl in F'. inversion F' as [|? ? NB _]; subst. apply NB. vm_compute; auto.
      * apply lexeme_blank in H' as [_ F']. simpl in F'. inversion F' as [|? ? _ F2]; subst.
        destruct ps as [|p2 ps]; simpl in Eq; [destruct q; [congruence|discriminate]|].
        inversion F as [|? s2 ? w2 H2 F3]; subst. destruct (lexeme_no_blank _ _ _ H2) as [N2 F4].
        destruct p2 as [|c p2]; [congruence|]. destruct q as [|c' q]; [congruence|].
        injection Eq as <- _. inversion F4; inversion F2; subst. auto.
Qed.

Lemma spaced_nonempty num ps w : Forall2 (fun p s => lexeme num p (Some s)) ps w -> w <> [] -> spaced ps <> [].
Proof. destruct 1 as [|p s ps w H F]; [congruence|]. intros _. simpl. destruct p; discriminate. Qed.

Lemma spelled_text_agrees sci ps w c : w <> [] ->
  Forall2 (fun p s => lexeme (literal_value sci) p (Some s)) ps w ->
  (parse_text sci (spaced ps) = Parsed c <-> chain (map KSym w) = Built (map_leaves Some c)).
Proof.
  intros N F. apply parser_builder; [eapply spaced_nonempty; eauto|apply reads_spaced; auto].
Qed.

Lemma spelled_text_fails sci ps w : w <> [] ->
  Forall2 (fun p s => lexeme (literal_value sci) p (Some s)) ps w ->
  (parse_text sci (spaced ps) = Rejected <-> chain (map KSym w) = BuiltNull).
Proof.
  intros N F. apply parser_builder_fail; [eapply spaced_nonempty; eauto|apply reads_spaced; auto].
Qed.
