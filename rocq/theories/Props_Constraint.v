(** Property theorems: constraint texts (C01 - C05). *)
From Coq Require Import List Ascii String ZArith Bool.
From Verif Require Import Text NumSpec ConstraintModel ConstraintSpec ConstraintParserModel
  ConstraintTokenSpec ConstraintParserProofs ConstraintLexerProofs ConstraintRoundTrip CharacterProofs.
Import ListNotations.

(** *** C01 *)

(** Printing and parsing gives the constraint back (with [excludes] spelled as
    [=> !]) exactly for the expressible constraints. *)
Theorem C01_round_trip : forall sci c,
  (forall t d, sci t = Some d -> starts_with (T "-") t = false -> starts_with (T "-") d = false) ->
  (parse_text sci (to_string (fun s => s) c) = Parsed (excludes_as_implies c) <-> expressible c).
Proof. exact round_trip. Qed.
Print Assumptions C01_round_trip.

Example C01_round_trip_ex :
  let c := CBin BEquivalence (CBin BExcludes (CFeat "a"%string) (CUn UNeg (CFeat "b_1"%string)))
             (CBin BLessEqual (CBin BAdd (CFeat "n"%string) (CInt 7)) (CInt 9223372036854775807)) in
  expressible c /\ U (to_string (fun s => s) c) = "((a => !~b_1) <=> ((n + 7) <= 9223372036854775807))"%string /\
  parse_text (fun _ => None) (to_string (fun s => s) c) = Parsed (excludes_as_implies c).
Proof.
  cbv zeta. split; [|split; vm_compute; reflexivity].
  cbn [expressible].
  repeat match goal with |- _ /\ _ => split end;
    first [discriminate | apply identifierb_ok; reflexivity | vm_compute; discriminate].
Qed.

(** The form read back has the same value under every assignment. *)
Theorem C01_same_meaning : forall (F : Type) (env : F -> Z) c,
  value env (excludes_as_implies c) = value env c.
Proof. exact @excludes_as_implies_value. Qed.
Print Assumptions C01_same_meaning.

Example C01_same_meaning_ex :
  value (fun _ : string => 1%Z) (excludes_as_implies (CBin BExcludes (CFeat "a"%string) (CFeat "b"%string))) = 0%Z.
Proof. reflexivity. Qed.

(** Constraints with an xor or a division are not read back at all. *)
Theorem C01_xor_division_rejected : forall sci c,
  identifiers_only c -> has_xor_or_div c -> parse_text sci (to_string (fun s => s) c) = Rejected.
Proof. exact xor_div_rejected. Qed.
Print Assumptions C01_xor_division_rejected.

Example C01_xor_division_rejected_ex :
  let c := CBin BAnd (CFeat "a"%string) (CBin BXor (CFeat "b"%string) (CInt (-3))) in
  identifiers_only c /\ has_xor_or_div c.
Proof.
  cbv zeta. split; [|cbn; tauto].
  repeat split; apply identifierb_ok; reflexivity.
Qed.

(** *** C02 *)

(** A text parses to [c] exactly if its symbols spell [c] in the precedence grammar. *)
Theorem C02_parser_is_grammar : forall sci s c, s <> [] ->
  (parse_text sci s = Parsed c <-> exists w, reads (literal_value sci) s w /\ spells w c).
Proof. exact parse_text_spec. Qed.
Print Assumptions C02_parser_is_grammar.

Example C02_parser_is_grammar_ex :
  parse_text (fun _ => None) (T "a-> b | !c&(d or e)*2 >=f") =
  Parsed (CBin BImplies (CFeat "a"%string)
    (CBin BOr (CFeat "b"%string)
       (CBin BAnd (CUn UNot (CFeat "c"%string))
          (CBin BGreaterEqual
             (CBin BMul (CBin BOr (CFeat "d"%string) (CFeat "e"%string)) (CInt 2))
             (CFeat "f"%string))))).
Proof. vm_compute. reflexivity. Qed.

(** *** C03 *)

(** The tokens cut the text into its longest units, in order, up to the end of
    the text, an end character or a character that starts no unit. *)
Theorem C03_lexer_exact : forall s, s <> [] ->
  exists ts, tokenize s = LexTokens ts /\ lexed s ts.
Proof. exact tokenize_lexed. Qed.
Print Assumptions C03_lexer_exact.

(** The cut is a stop-free sequence followed by one stop token. *)
Theorem C03_last_token_stops : forall s ts, lexed s ts ->
  exists b t, ts = b ++ [t] /\ Forall (fun t => is_stop t = false) b /\ is_stop t = true.
Proof. exact lexed_stopped. Qed.
Print Assumptions C03_last_token_stops.

Theorem C03_empty_text_undefined : tokenize [] = LexUb.
Proof. exact eq_refl. Qed.
Print Assumptions C03_empty_text_undefined.

(** The letters and digits of names and numbers, listed. *)
Theorem C03_letters_and_digits : forall c,
  (is_lower c = true <-> In c (T "abcdefghijklmnopqrstuvwxyz")) /\ (is_upper c = true <-> In c (T "ABCDEFGHIJKLMNOPQRSTUVWXYZ")) /\
  (is_digit c = true <-> In c (T "0123456789")) /\
  (is_alpha c = true <-> In c (small_letters ++ capital_letters)) /\ (is_alnum c = true <-> In c (small_letters ++ capital_letters ++ decimal_digits)).
Proof. exact characters_listed. Qed.
Print Assumptions C03_letters_and_digits.

Example C03_lexer_exact_ex :
  tokenize (T "a1<->12 /b") = LexTokens [TkId (T "a1"); TkEquivalent; TkNum (T "12"); TkWs; TkError (T "/")].
Proof. reflexivity. Qed.

(** *** C04 *)

(** Parsing a non-empty text ends, without looking at an empty queue. *)
Theorem C04_parser_safe_and_total : forall sci s, s <> [] ->
  parse_text sci s = Rejected \/ exists c, parse_text sci s = Parsed c.
Proof. exact parse_text_total. Qed.
Print Assumptions C04_parser_safe_and_total.

(** The parser reads the back of an empty queue on the empty text. *)
Theorem C04_empty_text_refuted : exists s, forall sci, parse_text sci s = ParseUb.
Proof. exact (ex_intro _ [] parse_text_empty). Qed.
Print Assumptions C04_empty_text_refuted.

Example C04_parser_safe_and_total_ex :
  parse_text (fun _ => None) (T "((a & )") = Rejected.
Proof. reflexivity. Qed.

(** *** C05 *)

(** The value of a number inside a text; see [literal_value]. *)
Theorem C05_literals : forall sci c r, is_digit c = true -> Forall number_char r ->
  parse_text sci (c :: r) = Parsed (CInt (literal_value sci (c :: r))).
Proof. exact parse_literal. Qed.
Print Assumptions C05_literals.

(** Exact in the 64-bit range, saturating above. *)
Theorem C05_decimal_exact_or_saturated : forall sci t, decimal t ->
  parse_text sci t = Parsed (CInt (Z.min int64_max (Z.of_N (dec_value 0 t)))).
Proof. exact parse_decimal. Qed.
Print Assumptions C05_decimal_exact_or_saturated.

(** Digits followed by a plus or minus are swallowed and give the largest integer. *)
Theorem C05_glued_operator : forall sci d o r, decimal d -> o = "+"%char \/ o = "-"%char ->
  decimal r -> parse_text sci (d ++ o :: r) = Parsed (CInt int64_max).
Proof. exact parse_glued. Qed.
Print Assumptions C05_glued_operator.

Example C05_ex :
  decimal (T "9223372036854775806") /\ decimal (T "9223372036854775808") /\
  parse_text (fun _ => None) (T "9223372036854775806") = Parsed (CInt 9223372036854775806) /\
  parse_text (fun _ => None) (T "9223372036854775808") = Parsed (CInt 9223372036854775807) /\
  parse_text (fun _ => None) (T "1-2") = Parsed (CInt 9223372036854775807).
Proof. repeat split; vm_compute; (reflexivity || discriminate). Qed.
