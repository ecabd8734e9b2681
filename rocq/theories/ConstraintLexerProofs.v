(** The lexer cuts a text into its longest lexical units. *)
From Coq Require Import List Ascii String ZArith NArith Arith Bool Lia ZifyBool ZifyNat.
From Verif Require Import Text NumSpec TextProofs LlvmInt LlvmIntProofs ConstraintModel ConstraintSpec
  ConstraintParserModel ConstraintTokenSpec ConstraintParserProofs.
Import ListNotations.

(** ** Character classes *)

Lemma is_ws_blank c : is_ws c = true <-> blank c.
Proof. unfold is_ws, blank. simpl. lia. Qed.

Lemma is_idchar_word c : is_idchar c = true <-> word_char c.
Proof.
  unfold is_idchar, word_char. rewrite orb_true_iff, Ascii.eqb_eq. tauto.
Qed.

Lemma is_numchar_number c : is_numchar c = true <-> number_char c.
Proof.
  unfold is_numchar, number_char. rewrite !orb_true_iff, !Ascii.eqb_eq. simpl.
  intuition congruence.
Qed.

Lemma forallb_Forall {A} (p : A -> bool) (P : A -> Prop) l :
  (forall a, p a = true <-> P a) -> (forallb p l = true <-> Forall P l).
Proof.
  intro H. rewrite forallb_forall, Forall_forall. split; intros F x I; apply H; auto.
Qed.

(** Longest prefix with a property. *)
Lemma prefix_take_while p a b r s :
  s = a ++ r -> forallb p a = true -> b = take_while p s -> List.length a <= List.length b.
Proof.
  intros -> Ha ->. induction a as [|c a IH]; simpl in *; [lia|].
  apply andb_true_iff in Ha as [H1 H2]. rewrite H1. simpl. specialize (IH H2). lia.
Qed.

(** ** First characters of lexical units *)

Ltac fixed_cases I :=
  repeat (destruct I as [I|I]; [inversion I; subst; clear I|]); [..|destruct I].

Lemma lexeme_class num c p o : lexeme num (c :: p) o ->
  (is_alpha c = true -> forallb is_idchar (c :: p) = true) /\
  (is_digit c = true -> forallb is_numchar (c :: p) = true) /\
  (is_ws c = true -> forallb is_ws (c :: p) = true) /\
  (is_alpha c = false -> is_digit c = false -> is_ws c = false ->
   exists s y, In (s, y) fixed_spellings /\ T s = c :: p /\ o = Some y).
Proof.
  intro H.
  assert (W : is_alpha c = true -> is_idchar c = true)
    by (unfold is_idchar, is_alnum; intros ->; auto).
  assert (D : is_digit c = true -> is_numchar c = true)
    by (unfold is_numchar; intros ->; auto).
  inversion H as [p' N B E1 E2|c' r A F Nor E1 E2|c' r A F E1 E2|s y I E1 E2]; subst.
  - inversion B; subst. apply is_ws_blank in H2.
    apply (forallb_Forall is_ws blank) in B; [|apply is_ws_blank].
    repeat split; intro X; auto; try congruence;
      unfold is_ws, is_alpha, is_lower, is_upper, is_digit in *; lia.
  - apply (forallb_Forall is_idchar word_char) in F; [|apply is_idchar_word].
    repeat split; intro X.
    + simpl. rewrite W, F; auto.
    + unfold is_alpha, is_lower, is_upper, is_digit in *; lia.
    + unfold is_alpha, is_lower, is_upper, is_ws in *; lia.
    + congruence.
  - apply (forallb_Forall is_numchar number_char) in F; [|apply is_numchar_number].
    repeat split; intro X.
    + unfold is_alpha, is_lower, is_upper, is_digit in *; lia.
    + simpl. rewrite D, F; auto.
    + unfold is_ws, is_digit in *; lia.
    + congruence.
  - split; [|split; [|split]].
    1-3: intro X; clear W D H; fixed_cases I; cbn in E1; inversion E1; subst; cbn in X |- *;
      try discriminate; reflexivity.
    intros _ _ _. exists s, y. auto.
Qed.

Lemma lexeme_nonempty num p o : lexeme num p o -> p <> [].
Proof.
  intros [p' N B|c r A W _|c r D N|p' s I]; try discriminate; auto.
  fixed_cases I; discriminate.
Qed.

(** Number tokens keep the lower-cased text. *)
Definition num_of (sci : text -> option text) (t : text) : Z := parse_integer sci (lower t).

Ltac longest_fixed H :=
  let s := fresh "s" in let y := fresh "y" in let I := fresh "I" in let E := fresh "E" in
  destruct H as (s & y & I & E & _); fixed_cases I; cbn in E; inversion E; subst; cbn; lia.

Lemma munch_spec sci s : s <> [] ->
  (exists c r, s = c :: r /\ munch s = (TkEof, 1) /\ end_char c) \/
  (exists c r, s = c :: r /\ munch s = (TkError [c], 1) /\ ~ end_char c /\
               forall p o r', s = p ++ r' -> ~ lexeme (num_of sci) p o) \/
  (exists t p r, s = p ++ r /\ munch s = (t, List.length p) /\ is_stop t = false /\
                 (lexeme (num_of sci) p (tok_sym sci t) /\ token_text t p) /\ longest (num_of sci) p s /\
                 forall c q, p = c :: q -> ~ end_char c).
Proof.
  intro NE. destruct s as [|c s']; [congruence|]. clear NE.
  remember (c :: s') as s eqn:Es.
  assert (NEend : forall k, code c = k -> k <> 0 -> k <> 255 -> forall d q r, c :: r = d :: q -> ~ end_char d).
  { intros k K K0 K1 d q r E X. inversion E; subst. destruct X; lia. }
  destruct (is_alpha c) eqn:CA.
  { right; right.
    assert (M : munch s = munch_id s).
    { subst s. unfold munch. unfold is_alpha in CA. rewrite CA. auto. }
    assert (Hend : ~ end_char c) by (intros [X|X]; unfold is_alpha, is_lower, is_upper in CA; lia).
    assert (TW : take_while is_idchar s = c :: take_while is_idchar s').
    { subst s. cbn. unfold is_idchar at 1, is_alnum. rewrite CA. auto. }
    assert (LG : longest (num_of sci) (take_while is_idchar s) s).
    { intros p' o r' E L. destruct p' as [|d p']; [apply lexeme_nonempty in L; congruence|].
      assert (d = c) by (rewrite Es in E; inversion E; auto). subst d.
      apply lexeme_class in L as (L & _). eapply prefix_take_while; eauto. }
    assert (Fa : Forall word_char (take_while is_idchar s')).
    { apply (forallb_Forall is_idchar word_char); [apply is_idchar_word|apply take_while_all]. }
    rewrite M. unfold munch_id.
    destruct (text_eqb (take_while is_idchar s) (T "or")) eqn:Eor.
    - apply text_eqb_eq in Eor.
      exists TkOr, (T "or"), (drop_while is_idchar s). rewrite <- Eor.
      split; [symmetry; apply take_drop_while|]. split; [rewrite Eor; auto|]. split; auto. split; [|split; auto].
      + rewrite Eor. split; [apply lx_fixed; simpl; auto|cbn; auto].
      + intros d q E. rewrite TW in E. inversion E; subst; auto.
    - apply text_eqb_neq in Eor.
      exists (TkId (take_while is_idchar s)), (take_while is_idchar s), (drop_while is_idchar s).
      split; [symmetry; apply take_drop_while|]. split; auto. split; auto. split; [|split; auto].
      + rewrite TW in *. cbn [tok_sym]. split; [apply lx_name; auto|cbn; eauto 8].
      + intros d q E. rewrite TW in E. inversion E; subst; auto. }
  destruct (is_digit c) eqn:CD.
  { right; right.
    assert (M : munch s = munch_num s).
    { subst s. unfold munch. unfold is_alpha in CA. rewrite CA, CD. auto. }
    assert (Hend : ~ end_char c) by (intros [X|X]; unfold is_digit in CD; lia).
    assert (TW : take_while is_numchar s = c :: take_while is_numchar s').
    { subst s. cbn. unfold is_numchar at 1. rewrite CD. auto. }
    assert (LG : longest (num_of sci) (take_while is_numchar s) s).
    { intros p' o r' E L. destruct p' as [|d p']; [apply lexeme_nonempty in L; congruence|].
      assert (d = c) by (rewrite Es in E; inversion E; auto). subst d.
      apply lexeme_class in L as (_ & L & _). eapply prefix_take_while; eauto. }
    assert (Fa : Forall number_char (take_while is_numchar s')).
    { apply (forallb_Forall is_numchar number_char); [apply is_numchar_number|apply take_while_all]. }
    rewrite M. unfold munch_num.
    exists (TkNum (lower (take_while is_numchar s))), (take_while is_numchar s), (drop_while is_numchar s).
    split; [symmetry; apply take_drop_while|]. split; auto. split; auto. split; [|split; auto].
    - rewrite TW in *. cbn [tok_sym]. split; [apply (lx_num (num_of sci)); auto|cbn; eauto 8].
    - intros d q E. rewrite TW in E. inversion E; subst; auto. }
  destruct ((code c =? 255) || (code c =? 0)) eqn:CE.
  { left. exists c, s'. split; auto. split; [|red; lia].
    subst s. unfold munch. unfold is_alpha in CA. rewrite CA, CD, CE. auto. }
  assert (Hend : ~ end_char c) by (intros [X|X]; lia).
  destruct (is_ws c) eqn:CW.
  { right; right.
    assert (M : munch s = munch_ws s).
    { subst s. unfold munch. unfold is_alpha in CA. rewrite CA, CD, CE, CW. auto. }
    assert (TW : take_while is_ws s = c :: take_while is_ws s').
    { subst s. cbn. rewrite CW. auto. }
    exists TkWs, (take_while is_ws s), (drop_while is_ws s).
    split; [symmetry; apply take_drop_while|]. split; [rewrite M; auto|]. split; auto. split; [|split].
    - assert (B : Forall blank (take_while is_ws s)).
      { apply (forallb_Forall is_ws blank); [apply is_ws_blank|apply take_while_all]. }
      assert (NE : take_while is_ws s <> []) by (rewrite TW; discriminate).
      split; [apply lx_blank; auto|cbn; auto].
    - intros p' o r' E L. destruct p' as [|d p']; [apply lexeme_nonempty in L; congruence|].
      assert (d = c) by (rewrite Es in E; inversion E; auto). subst d.
      apply lexeme_class in L as (_ & _ & L & _). eapply prefix_take_while; eauto.
    - intros d q E. rewrite TW in E. inversion E; subst; auto. }
  assert (FX : forall p o r', s = p ++ r' -> lexeme (num_of sci) p o ->
     exists z y, In (z, y) fixed_spellings /\ T z = p /\ s = T z ++ r').
  { intros p o r' E L. destruct p as [|d p]; [apply lexeme_nonempty in L; congruence|].
    assert (d = c) by (rewrite Es in E; inversion E; auto). subst d.
    apply lexeme_class in L as (_ & _ & _ & L). destruct (L CA CD CW) as (z & y & I & Z & _).
    exists z, y. rewrite Z. auto. }
  assert (M : munch s =
     (if Ascii.eqb c "(" then (TkLPar, 1)
      else if Ascii.eqb c ")" then (TkRPar, 1)
      else if Ascii.eqb c "+" then (TkPlus, 1)
      else if Ascii.eqb c "~" then (TkNeg, 1)
      else if Ascii.eqb c "*" then (TkStar, 1)
      else if Ascii.eqb c "&" then (TkAnd, 1)
      else if Ascii.eqb c "|" then (TkOr, 1)
      else if Ascii.eqb c "-" || Ascii.eqb c "!" || Ascii.eqb c "=" || Ascii.eqb c ">"
              || Ascii.eqb c "<" then munch_op s
      else (TkError [c], 1))).
  { subst s. unfold munch. unfold is_alpha in CA. rewrite CA, CD, CE, CW. auto. }
  rewrite M. clear M NEend.
  Ltac one p t :=
    right; right; exists t, (T p); eexists;
    split; [subst; cbn; reflexivity|]; split; [reflexivity|]; split; [reflexivity|];
    split; [split; [apply lx_fixed; cbn; tauto|cbn; auto]|];
    split; [|cbn; intros ? ? Eq; inversion Eq; subst; auto].
  Ltac lg FX :=
    let p := fresh in let o := fresh in let r := fresh in let E := fresh in let L := fresh in
    let z := fresh in let y := fresh in let I := fresh in let E2 := fresh in
    intros p o r E L; destruct (FX p o r E L) as (z & y & I & <- & E2); clear FX L E;
    fixed_cases I; try (apply Nat.leb_le; reflexivity); exfalso; subst; cbn in *; discriminate.
  destruct (Ascii.eqb c "(") eqn:C1; [apply Ascii.eqb_eq in C1; subst c; one "("%string TkLPar; lg FX|].
  destruct (Ascii.eqb c ")") eqn:C2; [apply Ascii.eqb_eq in C2; subst c; one ")"%string TkRPar; lg FX|].
  destruct (Ascii.eqb c "+") eqn:C3; [apply Ascii.eqb_eq in C3; subst c; one "+"%string TkPlus; lg FX|].
  destruct (Ascii.eqb c "~") eqn:C4; [apply Ascii.eqb_eq in C4; subst c; one "~"%string TkNeg; lg FX|].
  destruct (Ascii.eqb c "*") eqn:C5; [apply Ascii.eqb_eq in C5; subst c; one "*"%string TkStar; lg FX|].
  destruct (Ascii.eqb c "&") eqn:C6; [apply Ascii.eqb_eq in C6; subst c; one "&"%string TkAnd; lg FX|].
  destruct (Ascii.eqb c "|") eqn:C7; [apply Ascii.eqb_eq in C7; subst c; one "|"%string TkOr; lg FX|].
  destruct (Ascii.eqb c "-" || Ascii.eqb c "!" || Ascii.eqb c "=" || Ascii.eqb c ">"
              || Ascii.eqb c "<") eqn:C8.
  - assert (NS : forall z r, s = T z ++ r -> starts_with (T z) s = true)
      by (intros z r ->; apply starts_with_app).
    assert (NS2 : forall z, starts_with (T z) s = true -> exists r, s = T z ++ r)
      by (intro z; apply starts_with_spec).
    Ltac lg2 FX NS :=
      let p := fresh in let o := fresh in let r := fresh in let E := fresh in let L := fresh in
      let z := fresh in let y := fresh in let I := fresh in let E2 := fresh in
      intros p o r E L; destruct (FX p o r E L) as (z & y & I & <- & E2); clear FX L E;
      fixed_cases I; try (apply Nat.leb_le; reflexivity); exfalso;
      first [cbn in E2; discriminate E2
            | apply NS in E2; match goal with H : starts_with _ _ = false |- _ => rewrite E2 in H; discriminate H end].
    Ltac two p t H NS2 :=
      let r := fresh "r" in let E := fresh "E" in
      destruct (NS2 _ H) as [r E];
      right; right; exists t, (T p), r;
      split; [exact E|]; split; [reflexivity|]; split; [reflexivity|];
      split; [split; [apply lx_fixed; cbn; tauto|cbn; auto]|];
      split; [|cbn; intros ? ? Eq; inversion Eq; subst; auto].
    rewrite !orb_true_iff, !Ascii.eqb_eq in C8.
    destruct C8 as [[[[C8|C8]|C8]|C8]|C8]; subst c.
    + replace (munch_op s) with (if starts_with (T "->") s then (TkImplies, 2) else (TkMinus, 1))
        by (rewrite Es; reflexivity).
      destruct (starts_with (T "->") s) eqn:S1.
      * two "->"%string TkImplies S1 NS2. lg2 FX NS.
      * one "-"%string TkMinus. lg2 FX NS.
    + replace (munch_op s) with (if starts_with (T "!=") s then (TkNotEqual, 2) else (TkNot, 1))
        by (rewrite Es; reflexivity).
      destruct (starts_with (T "!=") s) eqn:S1.
      * two "!="%string TkNotEqual S1 NS2. lg2 FX NS.
      * one "!"%string TkNot. lg2 FX NS.
    + replace (munch_op s) with (if starts_with (T "=>") s then (TkImplies, 2) else (TkEqual, 1))
        by (rewrite Es; reflexivity).
      destruct (starts_with (T "=>") s) eqn:S1.
      * two "=>"%string TkImplies S1 NS2. lg2 FX NS.
      * one "="%string TkEqual. lg2 FX NS.
    + replace (munch_op s) with (if starts_with (T ">=") s then (TkGreaterEqual, 2) else (TkGreater, 1))
        by (rewrite Es; reflexivity).
      destruct (starts_with (T ">=") s) eqn:S1.
      * two ">="%string TkGreaterEqual S1 NS2. lg2 FX NS.
      * one ">"%string TkGreater. lg2 FX NS.
    + replace (munch_op s) with
        (if starts_with (T "<->") s || starts_with (T "<=>") s then (TkEquivalent, 3)
         else if starts_with (T "<=") s then (TkLessEqual, 2) else (TkLess, 1))
        by (rewrite Es; reflexivity).
      destruct (starts_with (T "<->") s) eqn:S1.
      * two "<->"%string TkEquivalent S1 NS2. lg2 FX NS.
      * destruct (starts_with (T "<=>") s) eqn:S2; cbn [orb].
        -- two "<=>"%string TkEquivalent S2 NS2. lg2 FX NS.
        -- destruct (starts_with (T "<=") s) eqn:S3.
           ++ two "<="%string TkLessEqual S3 NS2. lg2 FX NS.
           ++ one "<"%string TkLess. lg2 FX NS.
  - right; left. exists c, s'. repeat split; auto.
    intros p o r' E L. destruct (FX p o r' E L) as (z & y & I & <- & E2). clear FX L E.
    rewrite !orb_false_iff in C8. destruct C8 as [[[[D1 D2] D3] D4] D5].
    rewrite Es in E2.
    fixed_cases I; cbn in E2; inversion E2; subst; discriminate.
Qed.

(** ** Relation between units and tokens *)

Lemma token_text_lexeme sci t p : token_text t p -> lexeme (num_of sci) p (tok_sym sci t).
Proof.
  destruct t; cbn; intro H; try tauto;
    try (destruct H as [->| ->]); try subst p;
    try (change (lexeme (num_of sci) (T "&") (Some (SInf BAnd))));
    try (match goal with |- lexeme _ ?q _ =>
           change q with (T (U q)); apply lx_fixed; cbn; tauto end).
  - destruct H as (-> & N & c & r & -> & A & W). apply lx_name; auto.
  - destruct H as (-> & c & r & -> & A & W). apply (lx_num (num_of sci)); auto.
  - destruct H. apply lx_blank; auto.
Qed.

Lemma lexeme_token_text num p o : lexeme num p o -> any_token_text p.
Proof.
  intros [p' N B|c r A W Nor|c r D N|p' s I].
  - exists TkWs. cbn. auto.
  - exists (TkId (c :: r)). cbn. eauto 8.
  - exists (TkNum (lower (c :: r))). cbn. eauto 8.
  - fixed_cases I.
    1: exists TkOr; cbn; auto.
    1: exists TkOr; cbn; auto.
    1: exists TkAnd; reflexivity.
    1: exists TkPlus; reflexivity.
    1: exists TkStar; reflexivity.
    1: exists TkMinus; reflexivity.
    1: exists TkImplies; cbn; auto.
    1: exists TkImplies; cbn; auto.
    1: exists TkEqual; reflexivity.
    1: exists TkNotEqual; reflexivity.
    1: exists TkNot; reflexivity.
    1: exists TkNeg; reflexivity.
    1: exists TkGreater; reflexivity.
    1: exists TkGreaterEqual; reflexivity.
    1: exists TkLess; reflexivity.
    1: exists TkLessEqual; reflexivity.
    1: exists TkEquivalent; cbn; auto.
    1: exists TkEquivalent; cbn; auto.
    1: exists TkLPar; reflexivity.
    1: exists TkRPar; reflexivity.
Qed.

Lemma any_token_lexeme sci p : any_token_text p <-> exists o, lexeme (num_of sci) p o.
Proof.
  split.
  - intros [t H]. exists (tok_sym sci t). apply token_text_lexeme; auto.
  - intros [o H]. eapply lexeme_token_text; eauto.
Qed.

Lemma token_text_nostop t p : token_text t p -> is_stop t = false.
Proof. destruct t; cbn; tauto. Qed.

(** ** The token loop *)

(** The tokens without the end marker that [tokenize] appends. *)
Definition close_tokens (ts : list token) : list token :=
  match rev ts with
  | t :: _ => if is_stop t then ts else ts ++ [TkEof]
  | [] => [TkEof]
  end.

Lemma close_cons t ts : is_stop t = false -> close_tokens (t :: ts) = t :: close_tokens ts.
Proof.
  intro S. unfold close_tokens. simpl rev.
  destruct (rev ts) as [|u q] eqn:E; simpl.
  - rewrite S. apply (f_equal (@rev _)) in E. rewrite rev_involutive in E. subst. auto.
  - destruct (is_stop u); auto.
Qed.

Lemma munch_loop_lexed fuel s : List.length s <= fuel ->
  exists ts, munch_loop fuel s = Some ts /\ lexed s (close_tokens ts) /\ (ts = [] -> s = []).
Proof.
  revert s; induction fuel as [|f IH]; intros s L.
  - destruct s; [|simpl in L; lia]. exists []. split; auto. split; auto. constructor.
  - destruct s as [|c s]; [exists []; split; auto; split; auto; constructor|].
    destruct (munch_spec (fun _ => None) (c :: s)) as [(d & r & E & M & End)|[(d & r & E & M & NEnd & No)|
      (t & p & r & E & M & S & [Lx TT] & Lg & NEnd)]]; [discriminate| | |]; cbn [munch_loop]; rewrite M; cbn [is_stop].
    + exists [TkEof]. split; auto. split; [|discriminate]. rewrite E. apply ld_end. auto.
    + exists [TkError [d]]. split; auto. split; [|discriminate]. rewrite E. apply ld_err; auto.
      intros p r' Ep A. apply (any_token_lexeme (fun _ => None)) in A as [o A].
      rewrite <- E in Ep. eapply No; eauto.
    + rewrite S. rewrite E. rewrite skipn_app_exact.
      assert (PN : p <> []) by (eapply lexeme_nonempty; eauto).
      assert (LR : List.length r <= f).
      { apply (f_equal (@List.length _)) in E. rewrite app_length in E. simpl in E, L.
        destruct p; [congruence|]. simpl in E. lia. }
      destruct (IH r LR) as (ts & Ets & Lts & _). rewrite Ets.
      exists (t :: ts). split; auto. split; [|discriminate].
      rewrite close_cons by auto. apply ld_unit; auto.
      intros (q & r' & Er & Nq & A). apply (any_token_lexeme (fun _ => None)) in A as [o A].
      specialize (Lg (p ++ q) o r'). rewrite app_length in Lg.
      assert (List.length p + List.length q <= List.length p).
      { apply Lg; auto. rewrite E, Er, app_assoc. auto. }
      destruct q; [congruence|]. simpl in H. lia.
Qed.

Lemma tokenize_lexed s : s <> [] -> exists ts, tokenize s = LexTokens ts /\ lexed s ts.
Proof.
  intro N. destruct (munch_loop_lexed (List.length s) s (le_n _)) as (ts & E & L & Z).
  unfold tokenize. rewrite E. unfold close_tokens in L.
  destruct (rev ts) as [|t q] eqn:R.
  - apply (f_equal (@rev _)) in R. rewrite rev_involutive in R. elim N; auto.
  - exists (if is_stop t then ts else ts ++ [TkEof]). auto.
Qed.

Lemma lexed_stopped s ts : lexed s ts -> stopped ts.
Proof.
  induction 1 as [|c r E|c r E N|p r t ts TT Lg L IH].
  - exists [], TkEof. repeat split; auto. constructor.
  - exists [], TkEof. repeat split; auto. constructor.
  - exists [], (TkError [c]). repeat split; auto. constructor.
  - destruct IH as (b & u & -> & Nb & Su). exists (t :: b), u. repeat split; auto.
    constructor; auto. eapply token_text_nostop; eauto.
Qed.

(** ** Determinism of the lexical structure *)

Lemma T_eq_or p : T p = T "or" -> p = "or"%string.
Proof. apply T_inj. Qed.

Lemma lexeme_fun num p o o' : lexeme num p o -> lexeme num p o' -> o = o'.
Proof.
  intros H H'.
  assert (NB : forall c, blank c -> is_alpha c = false /\ is_digit c = false).
  { intros c B. apply is_ws_blank in B.
    unfold is_ws, is_alpha, is_lower, is_upper, is_digit in *. lia. }
  assert (AD : forall c, is_alpha c = true -> is_digit c = false).
  { intros c. unfold is_alpha, is_lower, is_upper, is_digit. lia. }
  destruct H as [p N B|c r A W Nor|c r D N|p s I]; inversion H' as [p2 N2 B2 E1 E2|c2 r2 A2 W2 Nor2 E1 E2|c2 r2 D2 N2 E1 E2|p2 s2 I2 E1 E2];
    subst; auto; try congruence.
  - inversion B; subst. destruct (NB _ H1). congruence.
  - inversion B; subst. destruct (NB _ H1). congruence.
  - exfalso. clear H'. fixed_cases I2; inversion B as [|? ? B1 _]; vm_compute in B1; intuition discriminate.
  - inversion B2; subst. destruct (NB _ H1). congruence.
  - rewrite (AD _ A) in D2. discriminate.
  - exfalso. clear H'. fixed_cases I2; cbn in E1; inversion E1; subst; try discriminate. apply Nor; reflexivity.
  - inversion B2; subst. destruct (NB _ H1). congruence.
  - rewrite (AD _ A2) in D. discriminate.
  - exfalso. clear H'. fixed_cases I2; cbn in E1; inversion E1; subst; discriminate.
  - exfalso. clear H'. fixed_cases I; inversion B2 as [|? ? B1 _]; vm_compute in B1; intuition discriminate.
  - exfalso. clear H'. fixed_cases I; cbn in E1; inversion E1; subst; try discriminate. apply Nor2; reflexivity.
  - exfalso. clear H'. fixed_cases I; cbn in E1; inversion E1; subst; discriminate.
  - apply T_inj in E1. subst p2. clear H' NB AD.
    fixed_cases I; fixed_cases I2; auto; discriminate.
Qed.

Lemma longest_unique num p p' o o' r r' :
  lexeme num p o -> lexeme num p' o' -> longest num p (p ++ r) -> longest num p' (p' ++ r') ->
  p ++ r = p' ++ r' -> p = p' /\ r = r' /\ o = o'.
Proof.
  intros H H' L L' E.
  assert (LE : List.length p = List.length p').
  { apply Nat.le_antisymm; [eapply L'|eapply L]; eauto. }
  assert (p = p' /\ r = r').
  { clear - LE E. revert p' LE E. induction p as [|c p IH]; intros [|d p'] L E; simpl in *; try discriminate; auto.
    inversion E; subst. destruct (IH p') as [-> ->]; auto. }
  destruct H0; subst. split; auto. split; auto. eapply lexeme_fun; eauto.
Qed.

Lemma lexeme_not_end num c p o : lexeme num (c :: p) o -> ~ end_char c.
Proof.
  intros L E. inversion L as [p2 N2 B2 E1 E2|c2 r2 A2 W2 Nor2 E1 E2|c2 r2 D2 N2 E1 E2|p2 s2 I2 E1 E2]; subst.
  - inversion B2; subst. apply is_ws_blank in H1. unfold is_ws in H1. destruct E; lia.
  - unfold is_alpha, is_lower, is_upper in A2. destruct E; lia.
  - unfold is_digit in D2. destruct E; lia.
  - clear L. fixed_cases I2; cbn in E1; inversion E1; subst; destruct E; discriminate.
Qed.

Lemma ld_longest sci p r :
  ~ (exists q r' , r = q ++ r' /\ q <> [] /\ any_token_text (p ++ q)) -> longest (num_of sci) p (p ++ r).
Proof.
  intros H p' o r' E L. destruct (le_lt_dec (List.length p') (List.length p)) as [|G]; auto.
  exfalso. apply H.
  assert (X : exists q, p' = p ++ q /\ q <> [] /\ r = q ++ r').
  { clear - E G. revert p' E G. induction p as [|c p IH]; intros p' E G.
    - exists p'. repeat split; auto. intros ->. simpl in G. lia.
    - destruct p' as [|d p']; [simpl in G; lia|]. inversion E; subst. simpl in G.
      destruct (IH p') as (q & -> & N & ->); auto; [lia|]. exists q. auto. }
  destruct X as (q & -> & N & ->). exists q, r'. repeat split; auto.
  apply (any_token_lexeme sci). eauto.
Qed.

(** The symbols read from a text are those of the tokens before the end marker. *)
Lemma lexed_reads sci s ts w : lexed s ts ->
  (reads (num_of sci) s w <-> exists b, ts = b ++ [TkEof] /\ nostop b /\ syms sci b = w).
Proof.
  intro L. revert w. induction L as [|c r E|c r E N|p r t ts TT Lg L IH]; intro w.
  - split.
    + intro R. inversion R as [E1 E2| |p r o w' Lx Lg R' E1 E2]; subst.
      * exists []. repeat split. constructor.
      * destruct p; [apply lexeme_nonempty in Lx; congruence|discriminate].
    + intros (b & E & Nb & <-). destruct b as [|x b]; [constructor|].
      destruct b; discriminate.
  - split.
    + intro R. inversion R as [|c' r' End E1 E2|p r0 o w' Lx Lg R' E1 E2]; subst.
      * exists []. repeat split. constructor.
      * destruct p as [|d p]; [apply lexeme_nonempty in Lx; congruence|].
        inversion E1; subst. apply lexeme_not_end in Lx. tauto.
    + intros (b & Eb & Nb & <-). destruct b as [|x b]; [constructor; auto|].
      destruct b; discriminate.
  - split.
    + intro R. inversion R as [|c' r' End E1 E2|p r0 o w' Lx Lg R' E1 E2]; subst.
      * tauto.
      * exfalso. eapply (N p r0); auto. eapply lexeme_token_text; eauto.
    + intros (b & Eb & Nb & <-). destruct b as [|x b]; [discriminate|]. destruct b; discriminate.
  - pose proof (token_text_lexeme sci t p TT) as Lx0. pose proof (ld_longest sci p r Lg) as Lg0.
    split.
    + intro R. inversion R as [E1 E2|c' r' End E1 E2|p' r' o w' Lx Lg' R' E1 E2]; subst.
      * destruct p; [apply lexeme_nonempty in Lx0; congruence|discriminate].
      * destruct p as [|d p]; [apply lexeme_nonempty in Lx0; congruence|]. inversion E1; subst.
        apply lexeme_not_end in Lx0. tauto.
      * destruct (longest_unique _ _ _ _ _ _ _ Lx Lx0 Lg' Lg0 E1) as (-> & -> & ->).
        apply IH in R'. destruct R' as (b & -> & Nb & <-).
        exists (t :: b). repeat split; auto.
        -- constructor; auto. eapply token_text_nostop; eauto.
        -- simpl. destruct (tok_sym sci t); auto.
    + intros (b & Eb & Nb & <-). destruct b as [|x b]; simpl in Eb; inversion Eb; subst.
      * pose proof (token_text_nostop _ _ TT). discriminate.
      * inversion Nb; subst.
        replace (syms sci (x :: b)) with (opt_list (tok_sym sci x) ++ syms sci b)
          by (simpl; destruct (tok_sym sci x); auto).
        apply rd_unit; auto. apply IH. eauto.
Qed.

(** ** Number values *)

Lemma starts_minus t : starts_with (T "-") t = true <-> exists r, t = "-"%char :: r.
Proof. rewrite starts_with_spec. split; intros [r ->]; eexists; reflexivity. Qed.

Lemma parse_plain_clamped t : parse_plain t = clamped t.
Proof.
  unfold parse_plain, clamped.
  destruct (starts_with (T "-") t) eqn:S.
  - apply starts_minus in S as [d ->].
    destruct (negb (text_eqb d []) && forallb is_digit d) eqn:D.
    + apply andb_true_iff in D as [D1 D2]. apply negb_true_iff, text_eqb_neq in D1.
      rewrite get_dec_neg_digits by auto.
      destruct (int64_min <=? - Z.of_N (dec_value 0 d))%Z eqn:E; lia.
    + destruct (get_as_int64 10 ("-"%char :: d)) as [z|] eqn:G; auto. exfalso.
      apply get_as_int64_neg in G; [|right; red; lia]. cbn in G. destruct G as (N & v & V & _).
      apply radix10_all_digits in V. rewrite V, andb_true_r in D.
      apply negb_false_iff, text_eqb_eq in D. auto.
  - assert (NM : forall r, t <> "-"%char :: r).
    { intros r ->. rewrite (proj2 (starts_minus _)) in S by eauto. discriminate. }
    assert (X : match get_as_int64 10 t with Some n => n | None => int64_max end =
                if negb (text_eqb t []) && forallb is_digit t
                then Z.min int64_max (Z.of_N (dec_value 0 t)) else int64_max).
    { destruct (negb (text_eqb t []) && forallb is_digit t) eqn:D.
      + apply andb_true_iff in D as [D1 D2]. apply negb_true_iff, text_eqb_neq in D1.
        rewrite get_dec_digits by auto.
        destruct (Z.of_N (dec_value 0 t) <=? int64_max)%Z eqn:E; lia.
      + destruct (get_as_int64 10 t) as [z|] eqn:G; auto. exfalso.
        apply get_as_int64_pos in G; [|right; red; lia|auto]. cbn in G. destruct G as (N & v & V & _).
        apply radix10_all_digits in V. rewrite V, andb_true_r in D.
        apply negb_false_iff, text_eqb_eq in D. auto. }
    rewrite X. destruct t as [|c t]; auto.
    destruct (Ascii.eqb c "-") eqn:C.
    + apply Ascii.eqb_eq in C. subst. elim (NM t); auto.
    + destruct c as [[] [] [] [] [] [] [] []]; try reflexivity. discriminate.
Qed.

Lemma lower_lower t : lower (lower t) = lower t.
Proof.
  induction t as [|c t IH]; simpl; auto. rewrite IH. f_equal.
  unfold to_lower at 2. destruct (is_upper c) eqn:E; [|unfold to_lower; rewrite E; auto].
  unfold to_lower. replace (is_upper c) with true.
  replace (is_upper (ascii_of_nat (code c + 32))) with false; auto.
  unfold is_upper in *. pose proof (code_bound c). rewrite code_ascii_of_nat by lia. lia.
Qed.

Lemma lower_e t : contains_char "e" (lower t) = existsb (fun c => Ascii.eqb c "e" || Ascii.eqb c "E") t.
Proof.
  unfold contains_char. induction t as [|c t IH]; cbn [lower map existsb]; auto.
  change (map to_lower t) with (lower t). rewrite IH. f_equal.
  unfold to_lower. destruct (is_upper c) eqn:E.
  - rewrite !eqb_code. unfold is_upper in E. pose proof (code_bound c).
    rewrite code_ascii_of_nat by lia. change (code "e") with 101. change (code "E") with 69. lia.
  - rewrite !eqb_code. unfold is_upper in E. change (code "e") with 101. change (code "E") with 69. lia.
Qed.

Lemma lower_numchars t :
  forallb is_numchar t = true -> contains_char "e" (lower t) = false -> lower t = t.
Proof.
  rewrite lower_e. induction t as [|c t IH]; simpl; auto. intros N E.
  apply andb_true_iff in N as [N1 N2]. apply orb_false_iff in E as [E1 E2].
  rewrite IH by auto. rewrite to_lower_id; auto.
  apply orb_false_iff in E1 as [E1 E3]. unfold is_numchar in N1. rewrite E1, E3 in N1.
  rewrite !eqb_code in N1. change (code "+") with 43 in N1. change (code "-") with 45 in N1.
  unfold is_upper, is_digit in *. lia.
Qed.

Lemma num_of_literal sci c r :
  is_digit c = true -> Forall number_char r -> num_of sci (c :: r) = literal_value sci (c :: r).
Proof.
  intros D F. unfold num_of, parse_integer, literal_value.
  rewrite lower_lower, lower_e.
  assert (NM : starts_with (T "-") (lower (c :: r)) = false).
  { cbn [lower map starts_with T list_ascii_of_string]. rewrite to_lower_id by (apply is_digit_not_upper; auto).
    rewrite eqb_code. change (code "-") with 45. unfold is_digit in D. lia. }
  destruct (existsb _ (c :: r)) eqn:E.
  - destruct (sci (lower (c :: r))); [apply parse_plain_clamped|]. rewrite NM. auto.
  - rewrite lower_numchars; [apply parse_plain_clamped| |rewrite lower_e; auto].
    simpl. unfold is_numchar at 1. rewrite D. simpl.
    apply (forallb_Forall is_numchar number_char); [apply is_numchar_number|auto].
Qed.

Lemma lexeme_num_ext f g p o :
  (forall c r, is_digit c = true -> Forall number_char r -> f (c :: r) = g (c :: r)) ->
  lexeme f p o -> lexeme g p o.
Proof.
  intros E [p' N B|c r A W Nor|c r D N|p' s I].
  - apply lx_blank; auto.
  - apply lx_name; auto.
  - rewrite E by auto. apply lx_num; auto.
  - apply lx_fixed; auto.
Qed.

Lemma reads_num_ext f g s w :
  (forall c r, is_digit c = true -> Forall number_char r -> f (c :: r) = g (c :: r)) ->
  reads f s w -> reads g s w.
Proof.
  intros E H. induction H as [|c r End|p r o w Lx Lg R IH].
  - constructor.
  - constructor; auto.
  - apply rd_unit; auto.
    + eapply lexeme_num_ext; eauto.
    + intros p' o' r' Ep Lx'. apply (Lg p' o' r'); auto.
      eapply lexeme_num_ext; [|exact Lx']. intros; symmetry; auto.
Qed.

Lemma reads_literal sci s w : reads (num_of sci) s w <-> reads (literal_value sci) s w.
Proof.
  split; apply reads_num_ext; intros; [|symmetry]; apply num_of_literal; auto.
Qed.

(** ** The parser on texts *)

Theorem parse_text_spec sci s c : s <> [] ->
  (parse_text sci s = Parsed c <-> exists w, reads (literal_value sci) s w /\ spells w c).
Proof.
  intro N. destruct (tokenize_lexed s N) as (ts & E & L).
  destruct (lexed_stopped _ _ L) as (b & t & -> & Nb & St).
  unfold parse_text. rewrite E. rewrite (parse_tokens_spec sci b t c Nb St). split.
  - intros [-> X]. exists (syms sci b). split; auto. apply reads_literal.
    apply (lexed_reads sci s (b ++ [TkEof])); eauto.
  - intros (w & R & X). apply reads_literal in R. apply (lexed_reads sci s (b ++ [t])) in R; auto.
    destruct R as (b' & Eb & Nb' & <-).
    destruct (nostop_stop_unique b t b' TkEof []) as [-> ->]; auto.
Qed.

Theorem parse_text_total sci s : s <> [] ->
  parse_text sci s = Rejected \/ exists c, parse_text sci s = Parsed c.
Proof.
  intro N. destruct (tokenize_lexed s N) as (ts & E & L).
  unfold parse_text. rewrite E.
  destruct (parse_tokens_total sci ts (lexed_stopped _ _ L)) as [(c & _ & _ & H)|H]; eauto.
Qed.

Theorem parse_text_empty sci : parse_text sci [] = ParseUb.
Proof. reflexivity. Qed.
