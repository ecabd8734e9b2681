(** Proofs about step functions. *)
From Coq Require Import List Ascii String ZArith NArith Arith Bool Lia.
From Verif Require Import Text TextProofs StepFunctionModel StepFunctionSpec.
Import ListNotations.

(** ** Tokens *)

Fixpoint ftok (n : nat) (t : text) : list stoken :=
  match t with
  | [] => [KEnd]
  | c :: r => match n with
              | 0 => []
              | S f => let (k, m) := smunch c r in if is_final k then [k] else k :: ftok f (skipn m t)
              end
  end.

Definition F (t : text) : list stoken := ftok (List.length t) t.

Lemma smunch_pos c r : 1 <= snd (smunch c r).
Proof.
  unfold smunch.
  destruct (is_alpha c) eqn:A.
  { simpl. replace (is_word_part c) with true; [simpl; lia|]. unfold is_word_part, is_alnum. rewrite A. auto. }
  destruct (is_number_part c) eqn:N; [simpl; rewrite N; simpl; lia|].
  destruct (_ || _); [simpl; lia|]. destruct (is_blank c) eqn:B; [simpl; rewrite B; simpl; lia|].
  repeat (destruct (Ascii.eqb _ _); [simpl; lia|]). simpl. lia.
Qed.

Lemma ftok_fuel n t : List.length t <= n -> ftok n t = F t.
Proof.
  revert t. induction n as [n IH] using lt_wf_ind. intros t L. unfold F.
  destruct t as [|c r]; [destruct n; reflexivity|]. destruct n as [|n]; [simpl in L; lia|].
  cbn [ftok List.length]. pose proof (smunch_pos c r) as P. destruct (smunch c r) as [k m]. cbn [snd] in P.
  destruct (is_final k); auto. f_equal.
  assert (Ls : List.length (skipn m (c :: r)) <= List.length r).
  { rewrite skipn_length. cbn [List.length]. lia. }
  rewrite (IH n) by (simpl in L; lia).
  rewrite (IH (List.length r)); auto.
Qed.

Lemma F_cons c r : F (c :: r) = let (k, m) := smunch c r in if is_final k then [k] else k :: F (skipn m (c :: r)).
Proof.
  unfold F at 1. cbn [ftok List.length]. pose proof (smunch_pos c r) as P. destruct (smunch c r) as [k m]. cbn [snd] in P.
  destruct (is_final k); auto. f_equal. apply ftok_fuel. rewrite skipn_length. cbn [List.length]. lia.
Qed.

Definition with_end (l : list stoken) : list stoken :=
  match rev l with
  | [] => [KEnd]
  | k :: _ => if is_final k then l else l ++ [KEnd]
  end.

Lemma with_end_cons k l : is_final k = false -> with_end (k :: l) = k :: with_end l.
Proof.
  intros H. unfold with_end. cbn [rev]. destruct (rev l) as [|x y] eqn:E.
  - assert (l = []) as -> by (rewrite <- (rev_involutive l), E; auto). simpl. rewrite H. auto.
  - cbn [app]. destruct (is_final x); auto.
Qed.

Lemma loop_ftok n t : List.length t <= n -> with_end (stoken_loop n t) = ftok n t.
Proof.
  revert t. induction n as [|n IH]; intros [|c r] L; try reflexivity; [simpl in L; lia|].
  cbn [stoken_loop ftok]. pose proof (smunch_pos c r) as P. destruct (smunch c r) as [k m]. cbn [snd] in P.
  destruct (is_final k) eqn:Fk.
  - unfold with_end. simpl. rewrite Fk. auto.
  - rewrite with_end_cons by auto. f_equal. apply IH. rewrite skipn_length. cbn [List.length] in *. lia.
Qed.

Lemma stokenize_F t : t <> [] -> stokenize t = Some (F t).
Proof.
  intros N. unfold stokenize. unfold F. rewrite <- loop_ftok by auto. unfold with_end.
  destruct (rev (stoken_loop (List.length t) t)) eqn:E; auto.
  exfalso. assert (H : stoken_loop (List.length t) t = []) by (rewrite <- (rev_involutive (stoken_loop _ _)), E; auto).
  destruct t as [|c r]; [congruence|]. cbn [stoken_loop List.length] in H.
  destruct (smunch c r) as [k m]. destruct (is_final k); discriminate.
Qed.

(** ** Text level readers *)

Definition rd_operand {D} (value : text -> D) (t : text) : soutcome (operand D * text) :=
  let u := drop_while is_blank t in
  match u with
  | [] => SFail
  | c :: _ =>
      if is_alpha c then SOk (OName (take_while is_word_part u), drop_while is_word_part u)
      else if is_number_part c then
        let m := take_while is_number_part u in
        if number_readable m then SOk (ONum (value m), drop_while is_number_part u) else SUndef
      else SFail
  end.

Definition rd_operator (t : text) : soutcome (soperator * text) :=
  match drop_while is_blank t with
  | [] => SFail
  | c :: r => if Ascii.eqb c "+" then SOk (SAdd, r)
              else if Ascii.eqb c "*" then SOk (SMul, r)
              else if Ascii.eqb c "^" then SOk (SPow, r) else SFail
  end.

Definition rd_eof (t : text) : bool :=
  match drop_while is_blank t with
  | [] => true
  | c :: _ => (code c =? 255) || (code c =? 0)
  end.

Definition smap {A B} (f : A -> B) (x : soutcome A) : soutcome B :=
  match x with SOk a => SOk (f a) | SFail => SFail | SUndef => SUndef end.

Lemma blank_class c : is_blank c = true ->
  is_alpha c = false /\ is_number_part c = false /\ (code c =? 255) || (code c =? 0) = false.
Proof.
  unfold is_blank, is_alpha, is_number_part, is_digit, is_lower, is_upper. rewrite eqb_code.
  change (code ".") with 46. lia.
Qed.

Lemma F_blank c r : is_blank c = true -> F (c :: r) = KWhite :: F (drop_while is_blank (c :: r)).
Proof.
  intros B. rewrite F_cons. unfold smunch. destruct (blank_class c B) as (-> & -> & ->). rewrite B.
  cbn [is_final]. rewrite skipn_take_while. auto.
Qed.

Lemma F_drop t : F t = F (drop_while is_blank t) \/ F t = KWhite :: F (drop_while is_blank t).
Proof.
  destruct t as [|c r]; auto. destruct (is_blank c) eqn:B.
  - right. apply F_blank; auto.
  - left. simpl. rewrite B. auto.
Qed.

Lemma lower_number t : forallb is_number_part t = true -> lower t = t.
Proof.
  induction t as [|c t IH]; simpl; auto. rewrite andb_true_iff. intros [H1 H2]. rewrite IH by auto. f_equal.
  apply to_lower_id. unfold is_number_part, is_digit, is_upper in *. rewrite eqb_code in H1. change (code ".") with 46 in H1. lia.
Qed.

Lemma number_not_final c : is_number_part c = true -> is_alpha c = false.
Proof.
  unfold is_alpha, is_number_part, is_digit, is_lower, is_upper. rewrite eqb_code. change (code ".") with 46. lia.
Qed.

Lemma operand_F {D} (value : text -> D) t :
  parse_operand value (F t) = smap (fun p => (fst p, F (snd p))) (rd_operand value t).
Proof.
  assert (H : parse_operand value (F t) = parse_operand value (F (drop_while is_blank t))).
  { destruct (F_drop t) as [E|E]; rewrite E at 1; auto. }
  rewrite H. unfold rd_operand. pose proof (drop_while_head is_blank t) as Hd.
  destruct (drop_while is_blank t) as [|c r]; [reflexivity|]. simpl in Hd.
  rewrite F_cons. unfold smunch. destruct (is_alpha c) eqn:A.
  - cbn [is_final parse_operand smap fst snd]. rewrite skipn_take_while. auto.
  - destruct (is_number_part c) eqn:N.
    + cbn [is_final parse_operand smap fst snd]. rewrite skipn_take_while.
      rewrite lower_number by apply take_while_all.
      destruct (number_readable _); auto.
    + rewrite Hd. destruct (_ || _); auto. repeat (destruct (Ascii.eqb _ _); auto).
Qed.

Lemma operator_class c : is_alpha c = true \/ is_number_part c = true \/ (code c =? 255) || (code c =? 0) = true ->
  Ascii.eqb c "+" = false /\ Ascii.eqb c "*" = false /\ Ascii.eqb c "^" = false.
Proof.
  rewrite !eqb_code. unfold is_alpha, is_number_part, is_digit, is_lower, is_upper. rewrite !eqb_code.
  change (code ".") with 46. change (code "+") with 43. change (code "*") with 42. change (code "^") with 94. lia.
Qed.

Lemma operator_F t : parse_operator (F t) = smap (fun p => (fst p, F (snd p))) (rd_operator t).
Proof.
  assert (H : parse_operator (F t) = parse_operator (F (drop_while is_blank t))).
  { destruct (F_drop t) as [E|E]; rewrite E at 1; auto. }
  rewrite H. unfold rd_operator. pose proof (drop_while_head is_blank t) as Hd.
  destruct (drop_while is_blank t) as [|c r]; [reflexivity|]. simpl in Hd.
  rewrite F_cons. unfold smunch. destruct (is_alpha c) eqn:A.
  { destruct (operator_class c) as (-> & -> & ->); auto. }
  destruct (is_number_part c) eqn:N.
  { destruct (operator_class c) as (-> & -> & ->); auto. }
  destruct ((code c =? 255) || (code c =? 0)) eqn:Z.
  { destruct (operator_class c) as (-> & -> & ->); auto. }
  rewrite Hd. destruct (Ascii.eqb c "+"); auto. destruct (Ascii.eqb c "*"); auto. destruct (Ascii.eqb c "^"); auto.
Qed.

Lemma eof_F t : parse_eof (F t) = rd_eof t.
Proof.
  assert (H : parse_eof (F t) = parse_eof (F (drop_while is_blank t))).
  { destruct (F_drop t) as [E|E]; rewrite E at 1; auto. }
  rewrite H. unfold rd_eof. pose proof (drop_while_head is_blank t) as Hd.
  destruct (drop_while is_blank t) as [|c r]; [reflexivity|]. simpl in Hd.
  rewrite F_cons. unfold smunch. destruct ((code c =? 255) || (code c =? 0)) eqn:Z.
  - replace (is_alpha c) with false. 2: { unfold is_alpha, is_lower, is_upper. lia. }
    replace (is_number_part c) with false.
    2: { unfold is_number_part, is_digit. rewrite eqb_code. change (code ".") with 46. lia. }
    reflexivity.
  - destruct (is_alpha c); auto. destruct (is_number_part c); auto. rewrite Hd.
    repeat (destruct (Ascii.eqb _ _); auto).
Qed.

Definition rd_step {D} (value : text -> D) (t : text) : soutcome (step_function D) :=
  match rd_operand value t with
  | SUndef => SUndef
  | SFail => SFail
  | SOk (l, t1) =>
      match rd_operator t1 with
      | SUndef => SUndef
      | SFail => SFail
      | SOk (o, t2) =>
          match rd_operand value t2 with
          | SUndef => SUndef
          | SFail => SFail
          | SOk (r, t3) =>
              if rd_eof t3 then
                match l, r with
                | OName _, OName _ => SFail
                | ONum _, ONum _ => SFail
                | _, _ => SOk (StepFunction l o r)
                end
              else SFail
          end
      end
  end.

Lemma parse_step_rd {D} (value : text -> D) t : t <> [] -> parse_step value t = rd_step value t.
Proof.
  intros N. unfold parse_step, rd_step. rewrite stokenize_F by auto. rewrite operand_F.
  destruct (rd_operand value t) as [[l t1]| |]; auto. cbn [smap fst snd]. rewrite operator_F.
  destruct (rd_operator t1) as [[o t2]| |]; auto. cbn [smap fst snd]. rewrite operand_F.
  destruct (rd_operand value t2) as [[r t3]| |]; auto. cbn [smap fst snd]. rewrite eof_F. auto.
Qed.

(** ** Readers against the specification *)

Lemma blank_iff c : is_blank c = true <-> c = " "%char \/ c = ascii_of_nat 9 \/ c = ascii_of_nat 10 \/ c = ascii_of_nat 13.
Proof.
  unfold is_blank. split.
  - intros H. assert (code c = 32 \/ code c = 9 \/ code c = 10 \/ code c = 13) as K by lia.
    destruct K as [K|[K|[K|K]]]; [left|right;left|right;right;left|right;right;right]; apply code_inj; rewrite K; reflexivity.
  - intros [->|[->|[->| ->]]]; reflexivity.
Qed.

Lemma blanks_iff t : blanks t <-> forallb is_blank t = true.
Proof.
  unfold blanks. rewrite forallb_forall, Forall_forall. split; intros H x Hx; apply blank_iff; auto.
Qed.

Lemma word_iff c : is_word_part c = true <-> word_char c.
Proof. unfold is_word_part, word_char. rewrite orb_true_iff, Ascii.eqb_eq. tauto. Qed.
Lemma words_iff t : Forall word_char t <-> forallb is_word_part t = true.
Proof. rewrite forallb_forall, Forall_forall. split; intros H x Hx; apply word_iff; auto. Qed.
Lemma numeral_iff c : is_number_part c = true <-> numeral_char c.
Proof. unfold is_number_part, numeral_char. rewrite orb_true_iff, Ascii.eqb_eq. tauto. Qed.
Lemma numerals_iff t : Forall numeral_char t <-> forallb is_number_part t = true.
Proof. rewrite forallb_forall, Forall_forall. split; intros H x Hx; apply numeral_iff; auto. Qed.

Definition dots (t : text) : nat := List.length (filter (fun c => Ascii.eqb c ".") t).

Lemma digit_not_dot c : is_digit c = true -> Ascii.eqb c "." = false.
Proof. rewrite eqb_code. change (code ".") with 46. unfold is_digit. lia. Qed.

Lemma digits_dots t : forallb is_digit t = true -> dots t = 0.
Proof.
  unfold dots. induction t as [|c t IH]; simpl; auto. rewrite andb_true_iff. intros [H1 H2].
  rewrite digit_not_dot by auto. auto.
Qed.

Lemma no_dots_digits t : forallb is_number_part t = true -> dots t = 0 -> forallb is_digit t = true.
Proof.
  unfold dots. induction t as [|c t IH]; simpl; auto. rewrite !andb_true_iff. intros [H1 H2].
  unfold is_number_part in H1. destruct (Ascii.eqb c "."); simpl; [discriminate|].
  rewrite orb_false_r in H1. auto.
Qed.

Lemma dots_app a b : dots (a ++ b) = dots a + dots b.
Proof. unfold dots. rewrite filter_app, app_length. auto. Qed.

Lemma dots_cons c t : dots (c :: t) = (if Ascii.eqb c "." then 1 else 0) + dots t.
Proof. unfold dots. simpl. destruct (Ascii.eqb c "."); auto. Qed.

Lemma readable_iff t : forallb is_number_part t = true -> (number_readable t = true <-> decimal_number t).
Proof.
  intros P. unfold number_readable. fold (dots t). rewrite andb_true_iff, Nat.leb_le. split.
  - intros [E D]. destruct (Nat.eq_dec (dots t) 0) as [Z|Z].
    + left. split; [intros ->; discriminate|]. apply no_dots_digits; auto.
    + right. assert (exists a b, t = a ++ "."%char :: b) as (a & b & ->).
      { clear - Z. induction t as [|c t IH]; [unfold dots in Z; simpl in Z; lia|].
        rewrite dots_cons in Z. destruct (Ascii.eqb_spec c ".") as [->|N].
        - exists [], t. auto.
        - destruct IH as (a & b & ->); [lia|]. exists (c :: a), b. auto. }
      rewrite dots_app, dots_cons in D. cbn [Ascii.eqb Bool.eqb] in D.
      rewrite forallb_app in P. apply andb_true_iff in P as [Pa Pb]. simpl in Pb.
      change (Ascii.eqb "." ".") with true in D. exists a, b. split; auto.
      assert (Da : forallb is_digit a = true) by (apply no_dots_digits; auto; lia).
      assert (Db : forallb is_digit b = true) by (apply no_dots_digits; auto; lia).
      split; [rewrite forallb_app, Da, Db; auto|].
      intros H. apply app_eq_nil in H as [-> ->]. simpl in E. discriminate.
  - intros [[N D]|(a & b & -> & D & N)].
    + rewrite digits_dots by auto. split; [|lia]. destruct t as [|c t]; [congruence|].
      simpl in *. apply andb_true_iff in D as [-> _]. auto.
    + rewrite forallb_app in D. apply andb_true_iff in D as [Da Db].
      rewrite dots_app, dots_cons, (digits_dots a), (digits_dots b) by auto. split; [|simpl; lia].
      apply existsb_exists. destruct a as [|c a].
      * destruct b as [|c b]; [simpl in N; congruence|]. exists c. split; [simpl; auto|]. simpl in Db. apply andb_true_iff in Db as [-> _]; auto.
      * exists c. split; [left; auto|]. simpl in Da. apply andb_true_iff in Da as [-> _]; auto.
Qed.

Lemma digits_number t : forallb is_digit t = true -> forallb is_number_part t = true.
Proof.
  intros D. apply forallb_forall. intros x Hx. rewrite forallb_forall in D. unfold is_number_part. rewrite D; auto.
Qed.

Lemma decimal_parts t : decimal_number t -> forallb is_number_part t = true /\ t <> [].
Proof.
  intros [[N D]|(a & b & -> & D & N)].
  - split; auto. apply digits_number; auto.
  - split.
    + rewrite forallb_app in *. apply andb_true_iff in D as [Da Db]. rewrite digits_number by auto.
      simpl. apply digits_number; auto.
    + destruct a; discriminate.
Qed.

Lemma drop_while_app p a b : forallb p a = true -> head_fails p b -> drop_while p (a ++ b) = b.
Proof.
  intros Ha Hb. induction a as [|c a IH]; simpl in *.
  - destruct b as [|c b]; auto. simpl in Hb. simpl. rewrite Hb. auto.
  - apply andb_true_iff in Ha as [-> Ha]. auto.
Qed.

Lemma head_fails_cons p c r : p c = false -> head_fails p (c :: r).
Proof. simpl. auto. Qed.

(** A numeral or name, as the operand readers take it. *)
Inductive operand_text {D} (value : text -> D) : text -> operand D -> Prop :=
| OT_name x : name_text x -> operand_text value x (OName x)
| OT_num x : decimal_number x -> operand_text value x (ONum (value x)).

(** [r] does not continue the operand [x]. *)
Definition stops (x r : text) : Prop :=
  forall c r', r = c :: r' -> (name_text x -> ~ word_char c) /\ (numeral x -> ~ numeral_char c).

Lemma name_parts x : name_text x -> exists c r, x = c :: r /\ is_alpha c = true /\ forallb is_word_part x = true.
Proof.
  intros (c & r & -> & A & W). exists c, r. repeat split; auto. simpl. apply andb_true_iff. split.
  - unfold is_word_part, is_alnum. rewrite A. auto.
  - apply words_iff; auto.
Qed.

Lemma alpha_not_blank c : is_alpha c = true -> is_blank c = false.
Proof. destruct (is_blank c) eqn:E; auto. apply blank_class in E as [-> _]. auto. Qed.
Lemma number_not_blank c : is_number_part c = true -> is_blank c = false.
Proof. destruct (is_blank c) eqn:E; auto. apply blank_class in E as (_ & -> & _). auto. Qed.

Lemma name_not_numeral x : name_text x -> ~ numeral x.
Proof.
  intros (c & r & -> & A & _) [_ N]. inversion N as [|? ? H _]; subst. apply numeral_iff in H.
  apply number_not_final in H. congruence.
Qed.

Lemma decimal_numeral x : decimal_number x -> numeral x.
Proof. intros H. apply decimal_parts in H as [H N]. split; auto. apply numerals_iff; auto. Qed.

Lemma rd_operand_spec {D} (value : text -> D) t o r : rd_operand value t = SOk (o, r) <->
  exists b x, t = b ++ x ++ r /\ blanks b /\ operand_text value x o /\ stops x r.
Proof.
  split.
  - unfold rd_operand. pose proof (take_drop_while is_blank t) as Ht.
    pose proof (take_while_all is_blank t) as Hb. set (b := take_while is_blank t) in *.
    destruct (drop_while is_blank t) as [|c u] eqn:E; [discriminate|].
    destruct (is_alpha c) eqn:A.
    + intros H. injection H as <- <-. exists b, (take_while is_word_part (c :: u)).
      rewrite take_drop_while. split; [auto|]. split; [apply blanks_iff; auto|].
      assert (Nm : name_text (take_while is_word_part (c :: u))).
      { assert (is_word_part c = true) as W by (unfold is_word_part, is_alnum; rewrite A; auto).
        cbn [take_while]. rewrite W. exists c, (take_while is_word_part u). repeat split; auto.
        apply words_iff, take_while_all. }
      split; [constructor; auto|].
      intros d r' Er. change (drop_while is_word_part (c :: u) = d :: r') in Er. pose proof (drop_while_head is_word_part (c :: u)) as Hd. rewrite Er in Hd. simpl in Hd.
      split; [|intros H; exfalso; eapply name_not_numeral; eauto].
      intros _ W. apply word_iff in W. congruence.
    + destruct (is_number_part c) eqn:N; [|discriminate].
      destruct (number_readable (take_while is_number_part (c :: u))) eqn:R; [|discriminate].
      intros H. injection H as <- <-. exists b, (take_while is_number_part (c :: u)).
      rewrite take_drop_while. split; [auto|]. split; [apply blanks_iff; auto|].
      apply readable_iff in R; [|apply take_while_all].
      split; [constructor; auto|].
      intros d r' Er. change (drop_while is_number_part (c :: u) = d :: r') in Er. pose proof (drop_while_head is_number_part (c :: u)) as Hd. rewrite Er in Hd. simpl in Hd.
      split.
      * intros H. exfalso. eapply name_not_numeral; eauto. apply decimal_numeral; auto.
      * intros _ W. apply numeral_iff in W. congruence.
  - intros (b & x & -> & B & O & S). apply blanks_iff in B. unfold rd_operand. destruct O as [x Nm|x Dn].
    + destruct (name_parts x Nm) as (c & u & Ex & A & W).
      rewrite drop_while_app; auto.
      2: { rewrite Ex. apply head_fails_cons, alpha_not_blank; auto. }
      assert (Hh : head_fails is_word_part r).
      { destruct r as [|d r]; simpl; auto. destruct (is_word_part d) eqn:Wd; auto.
        apply word_iff in Wd. exfalso. apply (proj1 (S d r eq_refl)); auto. }
      pose proof (take_while_app _ _ _ W Hh) as T1. pose proof (drop_while_app _ _ _ W Hh) as T2.
      rewrite T1, T2. rewrite Ex. cbn [app]. rewrite A. auto.
    + destruct (decimal_parts x Dn) as [P Nx].
      assert (exists c u, x = c :: u /\ is_number_part c = true) as (c & u & Ex & Nc).
      { destruct x as [|c u]; [congruence|]. exists c, u. split; auto. simpl in P. apply andb_true_iff in P. tauto. }
      rewrite drop_while_app; auto.
      2: { rewrite Ex. apply head_fails_cons, number_not_blank; auto. }
      assert (Hh : head_fails is_number_part r).
      { destruct r as [|d r]; simpl; auto. destruct (is_number_part d) eqn:Wd; auto.
        apply numeral_iff in Wd. exfalso. apply (proj2 (S d r eq_refl)); auto. apply decimal_numeral; auto. }
      pose proof (take_while_app _ _ _ P Hh) as T1. pose proof (drop_while_app _ _ _ P Hh) as T2.
      rewrite T1, T2. apply readable_iff in Dn; auto. rewrite Dn. rewrite Ex. cbn [app].
      rewrite (number_not_final c Nc), Nc. auto.
Qed.

Lemma rd_operand_undef {D} (value : text -> D) t : rd_operand value t = SUndef <->
  exists b u r, t = b ++ u /\ blanks b /\ bad_numeral u r.
Proof.
  split.
  - unfold rd_operand. pose proof (take_drop_while is_blank t) as Ht.
    pose proof (take_while_all is_blank t) as Hb. set (b := take_while is_blank t) in *.
    destruct (drop_while is_blank t) as [|c u] eqn:E; [discriminate|].
    destruct (is_alpha c) eqn:A; [discriminate|].
    destruct (is_number_part c) eqn:N; [|discriminate].
    destruct (number_readable (take_while is_number_part (c :: u))) eqn:R; [discriminate|].
    intros _. exists b, (c :: u), (drop_while is_number_part (c :: u)).
    split; [auto|]. split; [apply blanks_iff; auto|].
    exists (take_while is_number_part (c :: u)). split; [|split; [|split]].
    + split.
      * simpl. rewrite N. discriminate.
      * apply numerals_iff, take_while_all.
    + intros H. apply readable_iff in H; [congruence|apply take_while_all].
    + symmetry. apply take_drop_while.
    + intros d r' Er W. change (drop_while is_number_part (c :: u) = d :: r') in Er. pose proof (drop_while_head is_number_part (c :: u)) as Hd. rewrite Er in Hd. simpl in Hd.
      apply numeral_iff in W. congruence.
  - intros (b & u & r & -> & B & (x & [Nx Fx] & Nd & -> & S)). apply blanks_iff in B. apply numerals_iff in Fx.
    assert (exists c v, x = c :: v /\ is_number_part c = true) as (c & v & Ex & Nc).
    { destruct x as [|c v]; [congruence|]. exists c, v. split; auto. simpl in Fx. apply andb_true_iff in Fx. tauto. }
    unfold rd_operand. rewrite drop_while_app; auto.
    2: { rewrite Ex. apply head_fails_cons, number_not_blank; auto. }
    assert (Hh : head_fails is_number_part r).
    { destruct r as [|d r]; simpl; auto. destruct (is_number_part d) eqn:Wd; auto.
      apply numeral_iff in Wd. exfalso. apply (S d r eq_refl); auto. }
    rewrite (take_while_app _ _ _ Fx Hh).
    assert (number_readable x = false) as ->.
    { destruct (number_readable x) eqn:R; auto. apply readable_iff in R; auto. tauto. }
    rewrite Ex. cbn [app]. rewrite (number_not_final c Nc), Nc. auto.
Qed.

Lemma rd_operator_spec t o r : rd_operator t = SOk (o, r) <-> exists b, t = b ++ operator_char o :: r /\ blanks b.
Proof.
  split.
  - unfold rd_operator. pose proof (take_drop_while is_blank t) as Ht.
    pose proof (take_while_all is_blank t) as Hb. destruct (drop_while is_blank t) as [|c u]; [discriminate|].
    intros H. exists (take_while is_blank t). split; [|apply blanks_iff; auto]. rewrite <- Ht at 1. f_equal.
    destruct (Ascii.eqb_spec c "+"); [injection H as <- <-; subst; auto|].
    destruct (Ascii.eqb_spec c "*"); [injection H as <- <-; subst; auto|].
    destruct (Ascii.eqb_spec c "^"); [injection H as <- <-; subst; auto|discriminate].
  - intros (b & -> & B). apply blanks_iff in B. unfold rd_operator. rewrite drop_while_app; auto.
    + destruct o; reflexivity.
    + destruct o; reflexivity.
Qed.

Lemma rd_operator_undef t : rd_operator t <> SUndef.
Proof.
  unfold rd_operator. destruct (drop_while is_blank t); [discriminate|].
  repeat (destruct (Ascii.eqb _ _); [discriminate|]). discriminate.
Qed.

Lemma rd_eof_spec t : rd_eof t = true <-> exists b e, t = b ++ e /\ blanks b /\ ends e.
Proof.
  split.
  - unfold rd_eof. pose proof (take_drop_while is_blank t) as Ht.
    pose proof (take_while_all is_blank t) as Hb. intros H.
    exists (take_while is_blank t), (drop_while is_blank t). split; [auto|]. split; [apply blanks_iff; auto|].
    destruct (drop_while is_blank t) as [|c u]; [left; auto|]. right. exists c, u. split; auto. lia.
  - intros (b & e & -> & B & E). apply blanks_iff in B. unfold rd_eof. rewrite drop_while_app; auto.
    + destruct E as [->|(c & r & -> & H)]; auto. lia.
    + destruct E as [->|(c & r & -> & H)]; simpl; auto. unfold is_blank. lia.
Qed.

Lemma blank_stops x b r : blanks b -> (name_text x \/ numeral x) ->
  (forall c r', r = c :: r' -> ~ word_char c /\ ~ numeral_char c) -> stops x (b ++ r).
Proof.
  intros B K H c r' E. destruct b as [|d b].
  - destruct (H c r' E). tauto.
  - injection E as -> _. inversion B as [|? ? Bc _]; subst. apply blank_iff in Bc.
    split; intros _ W.
    + apply word_iff in W. unfold is_word_part, is_alnum in W. unfold is_blank in Bc. rewrite eqb_code in W.
      change (code "_") with 95 in W. unfold is_alpha, is_digit, is_lower, is_upper in W. lia.
    + apply numeral_iff in W. apply number_not_blank in W. congruence.
Qed.

Lemma operator_not_part o : ~ word_char (operator_char o) /\ ~ numeral_char (operator_char o).
Proof. rewrite <- word_iff, <- numeral_iff. destruct o; split; intro H; vm_compute in H; discriminate. Qed.

Lemma ends_not_part e c r : ends e -> e = c :: r -> ~ word_char c /\ ~ numeral_char c.
Proof.
  intros [->|(d & r' & -> & H)] E; [discriminate|]. injection E as -> _. rewrite <- word_iff, <- numeral_iff.
  unfold is_word_part, is_number_part, is_alnum, is_alpha, is_digit, is_lower, is_upper. rewrite !eqb_code.
  change (code "_") with 95. change (code ".") with 46. split; intros W; lia.
Qed.

Lemma operand_kind {D} (value : text -> D) x o : operand_text value x o -> name_text x \/ numeral x.
Proof. intros [y H|y H]; auto. right. apply decimal_numeral; auto. Qed.

Lemma rd_step_ok {D} (value : text -> D) t f : rd_step value t = SOk f <->
  exists x y, written t x (sf_op f) y /\ operand_text value x (sf_lhs f) /\ operand_text value y (sf_rhs f) /\
   match sf_lhs f, sf_rhs f with OName _, OName _ | ONum _, ONum _ => False | _, _ => True end.
Proof.
  unfold rd_step. split.
  - destruct (rd_operand value t) as [[l t1]| |] eqn:E1; try discriminate.
    destruct (rd_operator t1) as [[o t2]| |] eqn:E2; try discriminate.
    destruct (rd_operand value t2) as [[r t3]| |] eqn:E3; try discriminate.
    destruct (rd_eof t3) eqn:E4; [|discriminate]. intros H.
    apply rd_operand_spec in E1 as (b0 & x & -> & B0 & O1 & S1).
    apply rd_operator_spec in E2 as (b1 & -> & B1).
    apply rd_operand_spec in E3 as (b2 & y & -> & B2 & O2 & S2).
    apply rd_eof_spec in E4 as (b3 & e & -> & B3 & E).
    assert (f = StepFunction l o r /\ match l, r with OName _, OName _ | ONum _, ONum _ => False | _, _ => True end) as [-> K].
    { destruct l, r; try discriminate; injection H as <-; auto. }
    exists x, y. split; [exists b0, b1, b2, b3, e; repeat split; auto|]. cbn. auto.
  - intros (x & y & (b0 & b1 & b2 & b3 & e & -> & B0 & B1 & B2 & B3 & E) & O1 & O2 & K).
    assert (R1 : rd_operand value (b0 ++ x ++ b1 ++ operator_char (sf_op f) :: b2 ++ y ++ b3 ++ e) =
       SOk (sf_lhs f, b1 ++ operator_char (sf_op f) :: b2 ++ y ++ b3 ++ e)).
    { apply rd_operand_spec. exists b0, x. repeat (split; [now auto|]). apply blank_stops; auto.
      - eapply operand_kind; eauto.
      - intros c r' Ec. injection Ec as <- _. apply operator_not_part. }
    assert (R2 : rd_operator (b1 ++ operator_char (sf_op f) :: b2 ++ y ++ b3 ++ e) = SOk (sf_op f, b2 ++ y ++ b3 ++ e)).
    { apply rd_operator_spec. exists b1. auto. }
    assert (R3 : rd_operand value (b2 ++ y ++ b3 ++ e) = SOk (sf_rhs f, b3 ++ e)).
    { apply rd_operand_spec. exists b2, y. repeat (split; [now auto|]). apply blank_stops; auto.
      - eapply operand_kind; eauto.
      - intros c r' Ec. eapply ends_not_part; eauto. }
    assert (R4 : rd_eof (b3 ++ e) = true) by (apply rd_eof_spec; eauto).
    rewrite R1, R2, R3, R4. destruct f as [l o r]. cbn in *. destruct l, r; tauto.
Qed.

Lemma parse_step_spec {D} (value : text -> D) t f : parse_step value t = SOk f <-> denotes value t f.
Proof.
  split.
  - intros H. assert (N : t <> []) by (intros ->; discriminate).
    rewrite parse_step_rd in H by auto. apply rd_step_ok in H as (x & y & W & O1 & O2 & K).
    destruct f as [l o r]. cbn in *. inversion O1; subst; inversion O2; subst; try contradiction; econstructor; eauto.
  - intros H. assert (N : t <> []).
    { intros ->. assert (W : exists x o y, written [] x o y) by (destruct H; eauto).
      destruct W as (x & o & y & b0 & b1 & b2 & b3 & e & E & _).
      symmetry in E. apply app_eq_nil in E as [_ E]. apply app_eq_nil in E as [_ E]. apply app_eq_nil in E as [_ E]. discriminate. }
    rewrite parse_step_rd by auto. apply rd_step_ok. destruct H as [x o y W Nx Ny|x o y W Nx Ny]; exists x, y; cbn;
    repeat split; auto; constructor; auto.
Qed.

Lemma parse_step_undef {D} (value : text -> D) t : parse_step value t = SUndef <-> t = [] \/ misread t.
Proof.
  destruct t as [|c0 t0] eqn:Et; [split; auto|]. rewrite <- Et. assert (N : t <> []) by (subst; discriminate).
  clear Et. rewrite parse_step_rd by auto. unfold rd_step, misread. split.
  - intros H. right. destruct (rd_operand value t) as [[l t1]| |] eqn:E1; try discriminate.
    2: { left. apply (rd_operand_undef value) in E1. auto. }
    right. destruct (rd_operator t1) as [[o t2]| |] eqn:E2; try discriminate.
    2: { exfalso. apply (rd_operator_undef _ E2). }
    destruct (rd_operand value t2) as [[r t3]| |] eqn:E3; try discriminate.
    + exfalso. destruct (rd_eof t3); try discriminate. destruct l, r; discriminate.
    + apply rd_operand_spec in E1 as (b0 & x & -> & B0 & O1 & S1).
      apply rd_operator_spec in E2 as (b1 & -> & B1).
      apply (rd_operand_undef value) in E3 as (b2 & u & r & -> & B2 & Bad).
      exists b0, x, b1, o, b2, u, r. repeat (split; [now auto|]). split.
      * inversion O1; auto.
      * auto.
  - intros [H|[H|H]]; [congruence| |].
    + apply (rd_operand_undef value) in H. rewrite H. auto.
    + destruct H as (b0 & x & b1 & o & b2 & u & r & -> & B0 & K & B1 & B2 & Bad).
      assert (exists v, operand_text value x v) as [v O1] by (destruct K; eexists; constructor; eauto).
      assert (R1 : rd_operand value (b0 ++ x ++ b1 ++ operator_char o :: b2 ++ u) =
         SOk (v, b1 ++ operator_char o :: b2 ++ u)).
      { apply rd_operand_spec. exists b0, x. repeat (split; [now auto|]). apply blank_stops; auto.
        - eapply operand_kind; eauto.
        - intros c r' Ec. injection Ec as <- _. apply operator_not_part. }
      assert (R2 : rd_operator (b1 ++ operator_char o :: b2 ++ u) = SOk (o, b2 ++ u)).
      { apply rd_operator_spec. exists b1. auto. }
      assert (R3 : rd_operand value (b2 ++ u) = SUndef).
      { apply rd_operand_undef. exists b2, u, r. auto. }
      rewrite R1, R2, R3. auto.
Qed.

Lemma denotes_next {D} (A : arith D) value t f v : denotes value t f ->
  exists x y, written t x (sf_op f) y /\
    ((name_text x /\ next_double A f v = Some (apply_op A (sf_op f) v (value y))) \/
     (name_text y /\ next_double A f v = Some (apply_op A (sf_op f) (value x) v))).
Proof. intros [x o y W Nx Ny|x o y W Nx Ny]; exists x, y; cbn; auto. Qed.

(** ** Range expansion *)

Lemma iterates_fun step lo vs v vs' v' : iterates step lo vs v -> iterates step lo vs' v' ->
  List.length vs = List.length vs' -> vs = vs' /\ v = v'.
Proof.
  intros H. revert vs' v'. induction H as [|vs v w H IH S]; intros vs' v' H' L.
  - inversion H'; subst; auto. rewrite app_length in L. simpl in L. lia.
  - inversion H' as [|us u z H0 S0]; subst; rewrite !app_length in L; simpl in L; [lia|].
    destruct (IH _ _ H0) as [-> ->]; [lia|]. split; congruence.
Qed.

Lemma expand_loop_spec g hi n cur vals out : expand_loop n (Some g) cur hi vals = Expanded out ->
  forall lo, iterates g lo (rev vals) cur -> Forall (fun v => (v <= hi)%Z) vals ->
  exists v, iterates g lo (rev out) v /\ Forall (fun v => (v <= hi)%Z) out /\ (hi < v)%Z.
Proof.
  revert cur vals. induction n as [|n IH]; intros cur vals; simpl; destruct (cur <=? hi)%Z eqn:E; try discriminate.
  - intros H lo I Fv. injection H as <-. exists cur. repeat split; auto. lia.
  - destruct (g cur) as [w|] eqn:G; [|discriminate]. intros H lo I Fv. eapply IH; eauto.
    + simpl. econstructor; eauto.
    + constructor; auto. lia.
  - intros H lo I Fv. injection H as <-. exists cur. repeat split; auto. lia.
Qed.

Lemma expand_loop_complete g hi lo vs v : iterates g lo vs v ->
  Forall (fun x => (x <= hi)%Z) vs ->
  forall n, expand_loop (List.length vs + n) (Some g) lo hi [] = expand_loop n (Some g) v hi (rev vs).
Proof.
  induction 1 as [|vs v w H IH G]; intros Fv n; auto.
  apply Forall_app in Fv as [Fv Fw]. inversion Fw as [|? ? Hv _]; subst.
  rewrite app_length. simpl. replace (List.length vs + 1 + n) with (List.length vs + S n) by lia.
  rewrite IH by auto. simpl. replace (v <=? hi)%Z with true by lia. rewrite G, rev_app_distr. reflexivity.
Qed.

Lemma expand_spec g lo hi out : (exists n, expand n (Some g) lo hi = Expanded out) <->
  exists v, iterates g lo (rev out) v /\ Forall (fun x => (x <= hi)%Z) out /\ (hi < v)%Z.
Proof.
  split.
  - intros [n H]. eapply expand_loop_spec; eauto. constructor.
  - intros (v & I & Fv & L). exists (List.length (rev out) + 0). unfold expand.
    rewrite (expand_loop_complete _ _ _ _ _ I) by (apply Forall_rev; auto).
    simpl. replace (v <=? hi)%Z with false by lia. rewrite rev_involutive. auto.
Qed.

Lemma expand_more n m step lo hi vals out : n <= m -> expand_loop n step lo hi vals = Expanded out ->
  expand_loop m step lo hi vals = Expanded out.
Proof.
  revert m lo vals. induction n as [|n IH]; intros m lo vals L H; destruct m as [|m]; try lia; simpl in *; auto.
  - destruct (lo <=? hi)%Z; [discriminate|auto].
  - destruct (lo <=? hi)%Z; auto. destruct step as [g|]; auto. destruct (g lo); auto. apply IH; auto. lia.
Qed.

(** Termination when stepping increases. *)
Lemma expand_terminates g lo hi :
  (forall v, (lo <= v <= hi)%Z -> exists w, g v = Some w /\ (v < w)%Z) ->
  exists n out, expand n (Some g) lo hi = Expanded out.
Proof.
  intros H. unfold expand.
  assert (K : forall k cur vals, (lo <= cur)%Z -> (Z.to_nat (hi + 1 - cur) <= k) ->
    exists n out, expand_loop n (Some g) cur hi vals = Expanded out).
  { induction k as [|k IH]; intros cur vals Lo Hk.
    - exists 0, vals. simpl. replace (cur <=? hi)%Z with false by lia. auto.
    - destruct (cur <=? hi)%Z eqn:E.
      + destruct (H cur) as (w & G & L); [lia|].
        destruct (IH w (cur :: vals)) as (n & out & R); [lia|lia|].
        exists (S n), out. simpl. rewrite E, G. auto.
      + exists 0, vals. simpl. rewrite E. auto. }
  apply (K (Z.to_nat (hi + 1 - lo))); lia.
Qed.

(** The loop runs forever exactly if all iterates exist and stay in the range. *)
Lemma expand_diverges g lo hi : (forall n, expand n (Some g) lo hi = ExpandRunning) <->
  (forall n, exists vs v, List.length vs = n /\ iterates g lo vs v /\ Forall (fun x => (x <= hi)%Z) (vs ++ [v])).
Proof.
  split.
  - intros H n. induction n as [|n (vs & v & L & I & Fv)].
    + exists [], lo. repeat split; [constructor|]. constructor; auto.
      specialize (H 0). unfold expand in H. simpl in H. destruct (lo <=? hi)%Z eqn:E; [lia|discriminate].
    + apply Forall_app in Fv as [Fv Fw]. inversion Fw as [|? ? Hv _]; subst.
      pose proof (H (List.length vs + 2)) as H2. unfold expand in H2.
      rewrite (expand_loop_complete _ _ _ _ _ I Fv) in H2. simpl in H2.
      replace (v <=? hi)%Z with true in H2 by lia. destruct (g v) as [w|] eqn:G; [|discriminate].
      exists (vs ++ [v]), w. rewrite app_length. simpl. split; [lia|]. split; [econstructor; eauto|].
      apply Forall_app. split; [apply Forall_app; auto|]. constructor; auto.
      destruct (w <=? hi)%Z eqn:E; [lia|discriminate].
  - intros H n. destruct (H n) as (vs & v & L & I & Fv). apply Forall_app in Fv as [Fv Fw].
    inversion Fw as [|? ? Hv _]; subst. unfold expand.
    replace (List.length vs) with (List.length vs + 0) by lia.
    rewrite (expand_loop_complete _ _ _ _ _ I Fv). simpl. replace (v <=? hi)%Z with true by lia. auto.
Qed.

Lemma expand_fixed_point g lo hi vs v : iterates g lo vs v -> Forall (fun x => (x <= hi)%Z) (vs ++ [v]) ->
  g v = Some v -> forall n, expand n (Some g) lo hi = ExpandRunning.
Proof.
  intros I Fv G. apply Forall_app in Fv as [Fv Fw]. inversion Fw as [|? ? Hv _]; subst.
  assert (K : forall n vals, expand_loop n (Some g) v hi vals = ExpandRunning).
  { induction n as [|n IH]; intros vals; simpl; replace (v <=? hi)%Z with true by lia; auto. rewrite G. auto. }
  intros n. destruct (le_lt_dec (List.length vs) n) as [L|L].
  - unfold expand. replace n with (List.length vs + (n - List.length vs)) by lia.
    rewrite (expand_loop_complete _ _ _ _ _ I Fv). apply K.
  - destruct (expand n (Some g) lo hi) as [out| |] eqn:E; auto.
    + unfold expand in E. apply (expand_more _ (List.length vs + 0)) in E; [|lia].
      rewrite (expand_loop_complete _ _ _ _ _ I Fv) in E. rewrite K in E. discriminate.
    + exfalso. revert E. unfold expand.
      assert (forall n m lo vals, n <= m -> expand_loop n (Some g) lo hi vals = ExpandUndef ->
        expand_loop m (Some g) lo hi vals = ExpandUndef) as M.
      { clear. induction n as [|n IH]; intros m lo vals L H; destruct m as [|m]; try lia; simpl in *; auto;
        destruct (lo <=? hi)%Z; try discriminate; auto. destruct (g lo); auto. apply IH; auto. lia. }
      intros E. apply (M _ (List.length vs + 0)) in E; [|lia].
      rewrite (expand_loop_complete _ _ _ _ _ I Fv) in E. rewrite K in E. discriminate.
Qed.

Lemma expand_null lo hi n : expand (S n) None lo hi = if (lo <=? hi)%Z then ExpandUndef else Expanded [].
Proof. unfold expand. simpl. destruct (lo <=? hi)%Z; auto. Qed.

Lemma parse_step_unsafe : exists t, t <> [] /\ forall D (value : text -> D), parse_step value t = SUndef.
Proof. exists (T "x + 1.2.3"). split; [discriminate|]. intros D value. vm_compute. reflexivity. Qed.

Lemma double_from_zero (A : arith Z) (value : text -> Z) : value (T "2") = 2%Z ->
  next_int A (StepFunction (OName (T "x")) SMul (ONum 2%Z)) 0 = Some 0%Z ->
  exists f lo hi, (exists t, parse_step value t = SOk f) /\
  forall n, expand n (Some (next_int A f)) lo hi = ExpandRunning.
Proof.
  intros V H. exists (StepFunction (OName (T "x")) SMul (ONum 2%Z)), 0%Z, 10%Z. split.
  - exists (T "x * 2"). rewrite <- V. vm_compute. reflexivity.
  - apply expand_fixed_point with (vs := []) (v := 0%Z); auto.
    + constructor.
    + repeat constructor. discriminate.
Qed.
