(** Step functions: lexer, parser, evaluation, and the expansion of numeric ranges.
    Models include/vara/Feature/StepFunction.h,
    include/vara/Feature/StepFunctionParser.h and lib/Solver/Z3Solver.cpp:41-53. *)
From Coq Require Import List Ascii String ZArith NArith Arith Bool.
From Verif Require Import Text.
Import ListNotations.

(** ** Lexer *)

(** StepFunctionToken (StepFunctionParser.h:17-44). *)
Inductive stoken := KId (t : text) | KNum (t : text) | KWhite | KPlus | KStar | KCaret | KEnd | KError (c : ascii).

Definition is_blank (c : ascii) : bool :=
  (code c =? 32) || (code c =? 9) || (code c =? 13) || (code c =? 10).
Definition is_number_part (c : ascii) : bool := is_digit c || Ascii.eqb c ".".
Definition is_word_part (c : ascii) : bool := is_alnum c || Ascii.eqb c "_".

(** [munch] and its helpers (StepFunctionParser.h:84-136) on a text with front
    character [c]; [EOF] is -1, the character 255 where [char] is signed. *)
Definition smunch (c : ascii) (r : text) : stoken * nat :=
  if is_alpha c then let m := take_while is_word_part (c :: r) in (KId m, List.length m)
  else if is_number_part c then
    let m := take_while is_number_part (c :: r) in (KNum (lower m), List.length m)
  else if (code c =? 255) || (code c =? 0) then (KEnd, 1)
  else if is_blank c then (KWhite, List.length (take_while is_blank (c :: r)))
  else if Ascii.eqb c "+" then (KPlus, 1)
  else if Ascii.eqb c "*" then (KStar, 1)
  else if Ascii.eqb c "^" then (KCaret, 1)
  else (KError c, 1).

Definition is_final (k : stoken) : bool :=
  match k with KEnd | KError _ => true | _ => false end.

(** The loop of [tokenize] (56-68); [fuel] bounds the number of tokens. *)
Fixpoint stoken_loop (fuel : nat) (t : text) : list stoken :=
  match fuel, t with
  | _, [] => []
  | 0, _ => []
  | S f, c :: r =>
      let (k, n) := smunch c r in
      if is_final k then [k] else k :: stoken_loop f (skipn n t)
  end.

(** [tokenize] (56-79); [None]: the last token of an empty list is read. *)
Definition stokenize (t : text) : option (list stoken) :=
  let l := stoken_loop (List.length t) t in
  match rev l with
  | [] => None
  | k :: _ => Some (if is_final k then l else l ++ [KEnd])
  end.

(** ** Parser *)

Inductive soperator := SAdd | SMul | SPow.

(** OperandVariantType (StepFunction.h:22); [D] stands for [double]. *)
Inductive operand (D : Type) := OName (n : text) | ONum (d : D).
Arguments OName {D}. Arguments ONum {D}.

(** StepFunction (StepFunction.h:24-25, 88-92). *)
Record step_function (D : Type) := StepFunction { sf_lhs : operand D; sf_op : soperator; sf_rhs : operand D }.
Arguments StepFunction {D}. Arguments sf_lhs {D}. Arguments sf_op {D}. Arguments sf_rhs {D}.

(** Outcome of a parser step: a value with the remaining tokens, an error
    (reported by an empty optional or a null pointer), or undefined behaviour. *)
Inductive soutcome (A : Type) := SOk (a : A) | SFail | SUndef.
Arguments SOk {A}. Arguments SFail {A}. Arguments SUndef {A}.

(** [StringRef::getAsDouble] on texts of digits and dots fails iff there is no digit
    or more than one dot; the value is left to the argument [value] below. *)
Definition number_readable (t : text) : bool :=
  existsb is_digit t && (List.length (filter (fun c => Ascii.eqb c ".") t) <=? 1).

(** [parseOperand] (174-208).  The result of [getAsDouble] is ignored, an unreadable
    number leaves the variable uninitialised. *)
Fixpoint parse_operand {D} (value : text -> D) (ts : list stoken) : soutcome (operand D * list stoken) :=
  match ts with
  | KWhite :: r => parse_operand value r
  | KId n :: r => SOk (OName n, r)
  | KNum n :: r => if number_readable n then SOk (ONum (value n), r) else SUndef
  | _ => SFail
  end.

(** [parseOperator] (210-246). *)
Fixpoint parse_operator (ts : list stoken) : soutcome (soperator * list stoken) :=
  match ts with
  | KWhite :: r => parse_operator r
  | KPlus :: r => SOk (SAdd, r)
  | KStar :: r => SOk (SMul, r)
  | KCaret :: r => SOk (SPow, r)
  | _ => SFail
  end.

(** [parseEOF] (248-283). *)
Fixpoint parse_eof (ts : list stoken) : bool :=
  match ts with
  | KWhite :: r => parse_eof r
  | KEnd :: _ => true
  | _ => false
  end.

(** [parseStepFunction] (285-314) on the tokens of a text (constructor, 149-151). *)
Definition parse_step {D} (value : text -> D) (t : text) : soutcome (step_function D) :=
  match stokenize t with
  | None => SUndef
  | Some ts =>
      match parse_operand value ts with
      | SUndef => SUndef
      | SFail => SFail
      | SOk (l, ts1) =>
          match parse_operator ts1 with
          | SUndef => SUndef
          | SFail => SFail
          | SOk (o, ts2) =>
              match parse_operand value ts2 with
              | SUndef => SUndef
              | SFail => SFail
              | SOk (r, ts3) =>
                  if parse_eof ts3 then
                    match l, r with
                    | OName _, OName _ => SFail
                    | ONum _, ONum _ => SFail
                    | _, _ => SOk (StepFunction l o r)
                    end
                  else SFail
              end
          end
      end
  end.

(** ** Evaluation *)

(** Double arithmetic and the conversions to and from [int64_t]; converting an
    unrepresentable double is undefined. *)
Record arith (D : Type) := Arith {
  a_add : D -> D -> D;
  a_mul : D -> D -> D;
  a_pow : D -> D -> D;
  a_of_int : Z -> D;
  a_to_int : D -> option Z
}.
Arguments a_add {D}. Arguments a_mul {D}. Arguments a_pow {D}. Arguments a_of_int {D}. Arguments a_to_int {D}.

Definition apply_op {D} (A : arith D) (o : soperator) (x y : D) : D :=
  match o with SAdd => a_add A x y | SMul => a_mul A x y | SPow => a_pow A x y end.

(** [next] on doubles (StepFunction.h:30-55); [None]: [std::get] on the wrong
    alternative. *)
Definition next_double {D} (A : arith D) (f : step_function D) (v : D) : option D :=
  match sf_rhs f with
  | ONum c => Some (apply_op A (sf_op f) v c)
  | OName _ => match sf_lhs f with
               | ONum c => Some (apply_op A (sf_op f) c v)
               | OName _ => None
               end
  end.

(** [next<int64_t>]. *)
Definition next_int {D} (A : arith D) (f : step_function D) (v : Z) : option Z :=
  match next_double A f (a_of_int A v) with
  | Some d => a_to_int A d
  | None => None
  end.

(** ** Range expansion *)

Inductive expansion := Expanded (vs : list Z) | ExpandUndef | ExpandRunning.

(** The loop in [addFeature] (Z3Solver.cpp:45-50).  [step] is [None] for a null
    step function pointer; [fuel] bounds the iterations, running out is
    [ExpandRunning]. *)
Fixpoint expand_loop (fuel : nat) (step : option (Z -> option Z)) (cur hi : Z) (vals : list Z) : expansion :=
  if (cur <=? hi)%Z then
    match fuel with
    | 0 => ExpandRunning
    | S f =>
        match step with
        | None => ExpandUndef
        | Some g => match g cur with
                    | None => ExpandUndef
                    | Some n => expand_loop f step n hi (cur :: vals)
                    end
        end
    end
  else Expanded vals.

Definition expand (fuel : nat) (step : option (Z -> option Z)) (lo hi : Z) : expansion :=
  expand_loop fuel step lo hi [].
