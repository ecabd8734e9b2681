(** What the tokens of the constraint lexer stand for. *)
From Coq Require Import List Ascii String ZArith Bool.
From Verif Require Import Text NumSpec ConstraintModel ConstraintSpec ConstraintParserModel.
Import ListNotations.

(** [token_text t p]: the token [t] is written [p]. *)
Definition token_text (t : token) (p : text) : Prop :=
  match t with
  | TkId v => p = v /\ p <> T "or" /\ exists c r, p = c :: r /\ is_alpha c = true /\ Forall word_char r
  | TkNum v => v = lower p /\ exists c r, p = c :: r /\ is_digit c = true /\ Forall number_char r
  | TkWs => p <> [] /\ Forall blank p
  | TkAnd => p = T "&"
  | TkEqual => p = T "="
  | TkEquivalent => p = T "<=>" \/ p = T "<->"
  | TkGreater => p = T ">"
  | TkGreaterEqual => p = T ">="
  | TkImplies => p = T "=>" \/ p = T "->"
  | TkLPar => p = T "("
  | TkLess => p = T "<"
  | TkLessEqual => p = T "<="
  | TkMinus => p = T "-"
  | TkNeg => p = T "~"
  | TkNot => p = T "!"
  | TkNotEqual => p = T "!="
  | TkOr => p = T "|" \/ p = T "or"
  | TkPlus => p = T "+"
  | TkRPar => p = T ")"
  | TkStar => p = T "*"
  | TkEof | TkError _ => False
  end.

Definition any_token_text (p : text) : Prop := exists t, token_text t p.

(** [lexed s ts]: the tokens [ts] cut [s], from left to right, into longest
    units, up to the end of the text, an end character or a character that
    starts no unit. *)
Inductive lexed : text -> list token -> Prop :=
| ld_nil : lexed [] [TkEof]
| ld_end c r : end_char c -> lexed (c :: r) [TkEof]
| ld_err c r : ~ end_char c -> (forall p r', c :: r = p ++ r' -> ~ any_token_text p) ->
    lexed (c :: r) [TkError [c]]
| ld_unit p r t ts :
    token_text t p -> ~ (exists q r' , r = q ++ r' /\ q <> [] /\ any_token_text (p ++ q)) ->
    lexed r ts -> lexed (p ++ r) (t :: ts).
