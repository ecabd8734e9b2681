(** Specification of the constraint language, independent of the lexer, parser
    and builder models: symbols, precedence grammar, lexical structure, meaning. *)
From Coq Require Import List Ascii String ZArith NArith Arith Bool.
From Verif Require Import Text NumSpec ConstraintModel.
Import ListNotations.

(** ** Symbols and the precedence grammar *)

(** The symbols a constraint text or a chain of builder calls spells. *)
Inductive sym :=
| SNum (n : Z)
| SName (s : string)
| SPre (o : unop)
| SInf (o : binop)
| SOpen
| SClose.

(** Documented binding levels; smaller binds tighter. *)
Definition level (o : binop) : nat :=
  match o with
  | BMul | BDiv => 1
  | BAdd | BSub => 2
  | BLess | BGreater | BLessEqual | BGreaterEqual => 3
  | BEqual | BNotEqual => 4
  | BAnd => 5
  | BOr | BXor => 6
  | BImplies | BExcludes => 7
  | BEquivalence => 8
  end.

(** [unary w c]: the word [w] is an operand (number, name, bracketed expression)
    under any number of prefix operators.  [expr p w c]: [w] is an expression
    whose infix operators outside brackets have a level below [p]; infix
    operators are left associative: the right operand only contains tighter
    operators. *)
Inductive unary : list sym -> cexpr string -> Prop :=
| u_num n : unary [SNum n] (CInt n)
| u_name s : unary [SName s] (CFeat s)
| u_pre o w c : unary w c -> unary (SPre o :: w) (CUn o c)
| u_par w c : expr 9 w c -> unary (SOpen :: w ++ [SClose]) c
with expr : nat -> list sym -> cexpr string -> Prop :=
| e_unary p w c : unary w c -> expr p w c
| e_inf p o wl wr l r :
    level o < p -> expr (S (level o)) wl l -> expr (level o) wr r ->
    expr p (wl ++ SInf o :: wr) (CBin o l r).

(** A word of the language and its tree. *)
Definition spells (w : list sym) (c : cexpr string) : Prop := expr 9 w c.

(** ** Lexical structure *)

Definition blank (c : ascii) : Prop := In (code c) [32; 9; 13; 10].
Definition word_char (c : ascii) : Prop := is_alnum c = true \/ c = "_"%char.
Definition number_char (c : ascii) : Prop :=
  is_digit c = true \/ In c ["e"%char; "E"%char; "+"%char; "-"%char].
(** NUL and the byte 255 end a text. *)
Definition end_char (c : ascii) : Prop := code c = 0 \/ code c = 255.

(** The fixed spellings. *)
Definition fixed_spellings : list (string * sym) :=
  [("or", SInf BOr); ("|", SInf BOr); ("&", SInf BAnd); ("+", SInf BAdd); ("*", SInf BMul);
   ("-", SInf BSub); ("->", SInf BImplies); ("=>", SInf BImplies); ("=", SInf BEqual);
   ("!=", SInf BNotEqual); ("!", SPre UNot); ("~", SPre UNeg); (">", SInf BGreater);
   (">=", SInf BGreaterEqual); ("<", SInf BLess); ("<=", SInf BLessEqual);
   ("<->", SInf BEquivalence); ("<=>", SInf BEquivalence); ("(", SOpen); (")", SClose)]%string.

(** [lexeme num p s]: the text [p] is one lexical unit and denotes [s] (nothing
    for blanks); [num] gives the value of a number. *)
Inductive lexeme (num : text -> Z) : text -> option sym -> Prop :=
| lx_blank p : p <> [] -> Forall blank p -> lexeme num p None
| lx_name c r : is_alpha c = true -> Forall word_char r -> c :: r <> T "or" ->
    lexeme num (c :: r) (Some (SName (U (c :: r))))
| lx_num c r : is_digit c = true -> Forall number_char r ->
    lexeme num (c :: r) (Some (SNum (num (c :: r))))
| lx_fixed p s : In (p, s) fixed_spellings -> lexeme num (T p) (Some s).

(** [p] is the longest lexical unit at the start of [s]. *)
Definition longest (num : text -> Z) (p s : text) : Prop :=
  forall p' o r, s = p' ++ r -> lexeme num p' o -> List.length p' <= List.length p.

Definition opt_list {A} (o : option A) : list A :=
  match o with Some a => [a] | None => [] end.

(** [reads num s w]: cutting [s] into longest units from left to right spells [w]. *)
Inductive reads (num : text -> Z) : text -> list sym -> Prop :=
| rd_nil : reads num [] []
| rd_end c r : end_char c -> reads num (c :: r) []
| rd_unit p r o w :
    lexeme num p o -> longest num p (p ++ r) -> reads num r w ->
    reads num (p ++ r) (opt_list o ++ w).

(** Value of a signed decimal text, clamped to 64 bits; other texts count as
    too large (too small with a leading minus). *)
Definition clamped (t : text) : Z :=
  match t with
  | "-"%char :: d =>
      if negb (text_eqb d []) && forallb is_digit d
      then Z.max int64_min (- Z.of_N (dec_value 0 d)) else int64_min
  | _ =>
      if negb (text_eqb t []) && forallb is_digit t
      then Z.min int64_max (Z.of_N (dec_value 0 t)) else int64_max
  end.

(** Value of a number: decimal digits are read exactly or saturate; with [+] or
    [-] inside the largest integer; with an exponent whatever the floating point
    path [sci] (text to text) gives, clamped. *)
Definition literal_value (sci : text -> option text) (t : text) : Z :=
  if existsb (fun c => Ascii.eqb c "e" || Ascii.eqb c "E") t
  then match sci (lower t) with Some d => clamped d | None => int64_max end
  else clamped t.

(** ** Names and re-readable constraints *)

(** Names that are identifiers of the constraint language. *)
Definition identifier (s : string) : Prop :=
  exists c r, T s = c :: r /\ is_alpha c = true /\ Forall word_char r /\ s <> "or"%string.

(** Constraints that consist of what the textual language can express. *)
Fixpoint expressible (c : cexpr string) : Prop :=
  match c with
  | CBin o l r => o <> BXor /\ o <> BDiv /\ expressible l /\ expressible r
  | CUn _ e => expressible e
  | CInt n => (0 <= n <= int64_max)%Z
  | CFeat s => identifier s
  end.

(** All names are identifiers (operators and integers arbitrary). *)
Fixpoint identifiers_only (c : cexpr string) : Prop :=
  match c with
  | CBin _ l r => identifiers_only l /\ identifiers_only r
  | CUn _ e => identifiers_only e
  | CInt _ => True
  | CFeat s => identifier s
  end.

(** The constraint contains an xor or a division node. *)
Fixpoint has_xor_or_div (c : cexpr string) : Prop :=
  match c with
  | CBin o l r => o = BXor \/ o = BDiv \/ has_xor_or_div l \/ has_xor_or_div r
  | CUn _ e => has_xor_or_div e
  | _ => False
  end.

(** All integer literals are 64-bit integers. *)
Fixpoint ints_in_range (c : cexpr string) : Prop :=
  match c with
  | CBin _ l r => ints_in_range l /\ ints_in_range r
  | CUn _ e => ints_in_range e
  | CInt n => is_int64 n
  | CFeat _ => True
  end.

(** [a excludes b] written as [a => !b]. *)
Fixpoint excludes_as_implies {F} (c : cexpr F) : cexpr F :=
  match c with
  | CBin BExcludes l r => CBin BImplies (excludes_as_implies l) (CUn UNot (excludes_as_implies r))
  | CBin o l r => CBin o (excludes_as_implies l) (excludes_as_implies r)
  | CUn o e => CUn o (excludes_as_implies e)
  | CInt n => CInt n
  | CFeat f => CFeat f
  end.

(** ** Meaning *)

Definition b2z (b : bool) : Z := if b then 1%Z else 0%Z.
Definition truth (z : Z) : bool := negb (z =? 0)%Z.

(** Value of a constraint when features have integer values (0 and 1 for
    booleans); truth values are 0 and 1. *)
Fixpoint value {F} (env : F -> Z) (c : cexpr F) : Z :=
  match c with
  | CInt n => n
  | CFeat f => env f
  | CUn UNot e => b2z (negb (truth (value env e)))
  | CUn UNeg e => (- value env e)%Z
  | CBin o l r =>
      let a := value env l in
      let b := value env r in
      match o with
      | BOr => b2z (truth a || truth b)
      | BXor => b2z (xorb (truth a) (truth b))
      | BAnd => b2z (truth a && truth b)
      | BEqual => b2z (a =? b)%Z
      | BNotEqual => b2z (negb (a =? b)%Z)
      | BImplies => b2z (implb (truth a) (truth b))
      | BExcludes => b2z (negb (truth a && truth b))
      | BEquivalence => b2z (Bool.eqb (truth a) (truth b))
      | BAdd => (a + b)%Z
      | BSub => (a - b)%Z
      | BMul => (a * b)%Z
      | BDiv => (a / b)%Z
      | BLess => b2z (a <? b)%Z
      | BGreater => b2z (b <? a)%Z
      | BLessEqual => b2z (a <=? b)%Z
      | BGreaterEqual => b2z (b <=? a)%Z
      end
  end.

(** The feature leaves of a constraint, left to right. *)
Fixpoint leaves {F} (c : cexpr F) : list F :=
  match c with
  | CBin _ l r => leaves l ++ leaves r
  | CUn _ e => leaves e
  | CInt _ => []
  | CFeat f => [f]
  end.
