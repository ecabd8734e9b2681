(** Lexer and parser for constraint texts.
    Models include/vara/Feature/ConstraintParser.h. *)
From Coq Require Import List Ascii String ZArith NArith Arith Bool.
From Verif Require Import Text LlvmInt ConstraintModel.
Import ListNotations.

(** Token kinds with their optional value (ConstraintParser.h:36-59, 61-70). *)
Inductive token :=
| TkAnd | TkEof | TkEqual | TkEquivalent | TkError (v : text) | TkGreater
| TkGreaterEqual | TkId (v : text) | TkImplies | TkLPar | TkLess | TkLessEqual
| TkMinus | TkNeg | TkNot | TkNotEqual | TkNum (v : text) | TkOr | TkPlus
| TkRPar | TkStar | TkWs.

(** [ConstraintToken::MinPrecedence], [MaxPrecedence] (ConstraintParser.h:33-34). *)
Definition min_prec : nat := 0.
Definition max_prec : nat := 9.

(** [ConstraintToken::calcPrecedence] (ConstraintParser.h:72-100). *)
Definition calc_prec (t : token) : nat :=
  match t with
  | TkStar => 1
  | TkPlus | TkMinus => 2
  | TkGreater | TkGreaterEqual | TkLess | TkLessEqual => 3
  | TkEqual | TkNotEqual => 4
  | TkAnd => 5
  | TkOr => 6
  | TkImplies => 7
  | TkEquivalent => 8
  | _ => max_prec
  end.

(** The test [Kind == END_OF_FILE || Kind == ERROR] (ConstraintParser.h:123-125,
    132-134). *)
Definition is_stop (t : token) : bool :=
  match t with TkEof | TkError _ => true | _ => false end.

(** Characters skipped by [munchWhitespace] (ConstraintParser.h:193-194). *)
Definition is_ws (c : ascii) : bool :=
  (code c =? 32) || (code c =? 9) || (code c =? 13) || (code c =? 10).

(** Characters taken by [munchNumber] (ConstraintParser.h:247-249). *)
Definition is_numchar (c : ascii) : bool :=
  is_digit c || Ascii.eqb c "e" || Ascii.eqb c "E" || Ascii.eqb c "+" || Ascii.eqb c "-".

(** Characters taken by [munchIdentifier] (ConstraintParser.h:257-258). *)
Definition is_idchar (c : ascii) : bool := is_alnum c || Ascii.eqb c "_".

(** [munchWhitespace] (ConstraintParser.h:192-197). *)
Definition munch_ws (s : text) : token * nat :=
  (TkWs, List.length (take_while is_ws s)).

(** [munchNumber] (ConstraintParser.h:246-254). *)
Definition munch_num (s : text) : token * nat :=
  let m := take_while is_numchar s in (TkNum (lower m), List.length m).

(** [munchIdentifier] (ConstraintParser.h:256-268). *)
Definition munch_id (s : text) : token * nat :=
  let m := take_while is_idchar s in
  if text_eqb m (T "or") then (TkOr, 2) else (TkId m, List.length m).

(** [munchOperator] (ConstraintParser.h:199-244). *)
Definition munch_op (s : text) : token * nat :=
  match s with
  | "-"%char :: _ => if starts_with (T "->") s then (TkImplies, 2) else (TkMinus, 1)
  | "!"%char :: _ => if starts_with (T "!=") s then (TkNotEqual, 2) else (TkNot, 1)
  | "="%char :: _ => if starts_with (T "=>") s then (TkImplies, 2) else (TkEqual, 1)
  | ">"%char :: _ => if starts_with (T ">=") s then (TkGreaterEqual, 2) else (TkGreater, 1)
  | "<"%char :: _ =>
      if starts_with (T "<->") s || starts_with (T "<=>") s then (TkEquivalent, 3)
      else if starts_with (T "<=") s then (TkLessEqual, 2) else (TkLess, 1)
  | c :: _ => (TkError [c], 1)
  | [] => (TkError [], 1)
  end.

(** [munch] (ConstraintParser.h:145-190).  [case EOF] compares a [char] with -1;
    on platforms with signed [char] (x86) this is the byte 0xFF.  Only called on
    non-empty text; the result for [[]] is arbitrary. *)
Definition munch (s : text) : token * nat :=
  match s with
  | [] => (TkEof, 1)
  | c :: _ =>
      if is_lower c || is_upper c then munch_id s
      else if is_digit c then munch_num s
      else if (code c =? 255) || (code c =? 0) then (TkEof, 1)
      else if is_ws c then munch_ws s
      else if Ascii.eqb c "(" then (TkLPar, 1)
      else if Ascii.eqb c ")" then (TkRPar, 1)
      else if Ascii.eqb c "+" then (TkPlus, 1)
      else if Ascii.eqb c "~" then (TkNeg, 1)
      else if Ascii.eqb c "*" then (TkStar, 1)
      else if Ascii.eqb c "&" then (TkAnd, 1)
      else if Ascii.eqb c "|" then (TkOr, 1)
      else if Ascii.eqb c "-" || Ascii.eqb c "!" || Ascii.eqb c "=" || Ascii.eqb c ">"
              || Ascii.eqb c "<" then munch_op s
      else (TkError [c], 1)
  end.

(** The loop of [tokenize] (ConstraintParser.h:120-128).  [fuel] bounds the
    number of iterations; [None] is running out of it. *)
Fixpoint munch_loop (fuel : nat) (s : text) : option (list token) :=
  match s with
  | [] => Some []
  | _ =>
      match fuel with
      | O => None
      | S f =>
          let (t, n) := munch s in
          if is_stop t then Some [t]
          else match munch_loop f (skipn n s) with
               | None => None
               | Some ts => Some (t :: ts)
               end
      end
  end.

(** Outcome of [tokenize]. *)
Inductive lex_result :=
| LexTokens (ts : list token)
| LexUb          (** [TokenList.back()] on an empty deque, ConstraintParser.h:131 *)
| LexFuel.

(** [ConstraintLexer::tokenize] (ConstraintParser.h:117-140). *)
Definition tokenize (s : text) : lex_result :=
  match munch_loop (List.length s) s with
  | None => LexFuel
  | Some ts =>
      match rev ts with
      | [] => LexUb
      | t :: _ => LexTokens (if is_stop t then ts else ts ++ [TkEof])
      end
  end.

(** [parseInteger] (ConstraintParser.h:278-301).  [sci] stands for the path
    through [double]: [StringRef::getAsDouble] followed by
    [llvm::formatv("{0:0}", Double)]; [None] if [getAsDouble] fails.  The text
    produced by that format contains no [e], so the recursive call never takes
    the first branch again and is unrolled here. *)
Definition parse_plain (s : text) : Z :=
  match get_as_int64 10 s with
  | Some n => n
  | None => if starts_with (T "-") s then int64_min else int64_max
  end.

Definition parse_integer (sci : text -> option text) (s : text) : Z :=
  if contains_char "e" (lower s) then
    match sci s with
    | Some s' => parse_plain s'
    | None => if starts_with (T "-") s then int64_min else int64_max
    end
  else parse_plain s.

(** Outcome of the parsing functions.  [PRes r ts]: returned [r] ([None] is
    [nullptr]) and left the queue [ts].  [PUb]: looked at an empty queue. *)
Inductive presult :=
| PRes (r : option (cexpr string)) (ts : list token)
| PUb
| PFuel.

(** Binary operator of a token, the cases of [parseBinaryConstraint]
    (ConstraintParser.h:418-470); the same tokens as in ConstraintParser.h:353-365. *)
Definition tok_binop (t : token) : option binop :=
  match t with
  | TkEqual => Some BEqual
  | TkEquivalent => Some BEquivalence
  | TkGreater => Some BGreater
  | TkGreaterEqual => Some BGreaterEqual
  | TkNotEqual => Some BNotEqual
  | TkStar => Some BMul
  | TkPlus => Some BAdd
  | TkMinus => Some BSub
  | TkLess => Some BLess
  | TkLessEqual => Some BLessEqual
  | TkAnd => Some BAnd
  | TkOr => Some BOr
  | TkImplies => Some BImplies
  | _ => None
  end.

(** [parseConstraint] (ConstraintParser.h:330-384), [parseBinaryConstraint]
    (402-481), [parseUnaryConstraint] (483-542) and [createConstraint] (386-400).
    The loop of [parseConstraint] is the separate function [parse_loop].
    [nest] is [NestingLevel]; the increments of the callers are kept.  [nest]
    is a [nat]: overflow of [int] is not modelled. *)
Fixpoint parse_constraint (sci : text -> option text) (fuel : nat) (nest prec : nat)
  (ts : list token) {struct fuel} : presult :=
  match fuel with
  | O => PFuel
  | S f =>
      match parse_unary sci f nest ts with
      | PRes (Some l) ts' => parse_loop sci f nest prec l ts'
      | r => r
      end
  end
with parse_loop (sci : text -> option text) (fuel : nat) (nest prec : nat)
  (l : cexpr string) (ts : list token) {struct fuel} : presult :=
  match fuel with
  | O => PFuel
  | S f =>
      match ts with
      | [] => PUb
      | t :: ts' =>
          match t with
          | TkError _ => PRes None ts
          | TkWs => parse_loop sci f nest prec l ts'
          | TkRPar => if nest =? 0 then PRes None ts else PRes (Some l) ts
          | TkEof => PRes (Some l) ts
          | TkId _ | TkLPar | TkNeg | TkNot | TkNum _ => PRes None ts
          | _ =>
              let np := calc_prec t in
              if prec <=? np then PRes (Some l) ts
              else match parse_binary sci f nest l np ts with
                   | PRes (Some l') ts'' => parse_loop sci f nest prec l' ts''
                   | r => r
                   end
          end
      end
  end
with parse_binary (sci : text -> option text) (fuel : nat) (nest : nat)
  (l : cexpr string) (prec : nat) (ts : list token) {struct fuel} : presult :=
  match fuel with
  | O => PFuel
  | S f =>
      match ts with
      | [] => PUb
      | t :: ts' =>
          match t with
          | TkError _ => PRes None ts
          | TkEof => PRes None ts
          | TkWs => parse_binary sci f nest l prec ts'
          | _ =>
              match tok_binop t with
              | Some o =>
                  match parse_constraint sci f (nest + 1 + 1) prec ts' with
                  | PRes (Some r) ts'' => PRes (Some (CBin o l r)) ts''
                  | r => r
                  end
              | None => PRes None ts
              end
          end
      end
  end
with parse_unary (sci : text -> option text) (fuel : nat) (nest : nat)
  (ts : list token) {struct fuel} : presult :=
  match fuel with
  | O => PFuel
  | S f =>
      match ts with
      | [] => PUb
      | t :: ts' =>
          match t with
          | TkWs => parse_unary sci f nest ts'
          | TkId v => PRes (Some (CFeat (U v))) ts'
          | TkNum v => PRes (Some (CInt (parse_integer sci v))) ts'
          | TkNot =>
              match parse_constraint sci f (nest + 1 + 1) min_prec ts' with
              | PRes (Some e) ts'' => PRes (Some (CUn UNot e)) ts''
              | r => r
              end
          | TkNeg =>
              match parse_constraint sci f (nest + 1 + 1) min_prec ts' with
              | PRes (Some e) ts'' => PRes (Some (CUn UNeg e)) ts''
              | r => r
              end
          | TkLPar =>
              match parse_constraint sci f (nest + 1) max_prec ts' with
              | PRes r ts'' =>
                  match ts'' with
                  | [] => PUb
                  | TkRPar :: ts3 => PRes r ts3
                  | _ => PRes None ts''
                  end
              | r => r
              end
          | _ => PRes None ts
          end
      end
  end.

(** Outcome of [ConstraintParser(Cnt).buildConstraint()]. *)
Inductive parse_outcome :=
| Parsed (c : cexpr string)
| Rejected       (** [nullptr] *)
| ParseUb
| ParseFuel.

(** Enough fuel for every token list (proved in ConstraintParserProofs.v). *)
Definition parse_fuel (ts : list token) : nat := 3 * List.length ts + 3.

(** [buildConstraint] on a token list (ConstraintParser.h:309). *)
Definition parse_tokens (sci : text -> option text) (ts : list token) : parse_outcome :=
  match parse_constraint sci (parse_fuel ts) 0 max_prec ts with
  | PRes (Some c) _ => Parsed c
  | PRes None _ => Rejected
  | PUb => ParseUb
  | PFuel => ParseFuel
  end.

(** [ConstraintParser(Cnt).buildConstraint()] (ConstraintParser.h:305-309). *)
Definition parse_text (sci : text -> option text) (s : text) : parse_outcome :=
  match tokenize s with
  | LexTokens ts => parse_tokens sci ts
  | LexUb => ParseUb
  | LexFuel => ParseFuel
  end.
