(** Byte strings and the character predicates used throughout the model.

    C++ [std::string] / [llvm::StringRef] values are modelled as lists of
    [ascii] (8-bit characters).  Feature names inside syntax trees are stored as
    Coq [string]s; [T] and [U] convert. *)
From Coq Require Import List Ascii String ZArith NArith Arith Bool Lia.
Import ListNotations.

(** Contents of an [llvm::StringRef] or [std::string]. *)
Definition text := list ascii.

(** Conversions between [string] and [text]. *)
Definition T (s : string) : text := list_ascii_of_string s.
Definition U (t : text) : string := string_of_list_ascii t.

(** Unsigned value of a byte. *)
Definition code (c : ascii) : nat := nat_of_ascii c.

(** [llvm::isDigit] (llvm/ADT/StringExtras.h). *)
Definition is_digit (c : ascii) : bool := (48 <=? code c) && (code c <=? 57).
(** ['a' <= C && C <= 'z'], as written in ConstraintParser.h:146. *)
Definition is_lower (c : ascii) : bool := (97 <=? code c) && (code c <=? 122).
(** ['A' <= C && C <= 'Z'], as written in ConstraintParser.h:147. *)
Definition is_upper (c : ascii) : bool := (65 <=? code c) && (code c <=? 90).
(** [llvm::isAlpha]. *)
Definition is_alpha (c : ascii) : bool := is_lower c || is_upper c.
(** [llvm::isAlnum]. *)
Definition is_alnum (c : ascii) : bool := is_alpha c || is_digit c.

(** [llvm::toLower] on one byte. *)
Definition to_lower (c : ascii) : ascii :=
  if is_upper c then ascii_of_nat (code c + 32) else c.

(** [StringRef::lower]. *)
Definition lower (t : text) : text := map to_lower t.

(** [StringRef::take_while]. *)
Fixpoint take_while (p : ascii -> bool) (t : text) : text :=
  match t with
  | [] => []
  | c :: r => if p c then c :: take_while p r else []
  end.

(** The rest after [StringRef::take_while]. *)
Fixpoint drop_while (p : ascii -> bool) (t : text) : text :=
  match t with
  | [] => []
  | c :: r => if p c then drop_while p r else t
  end.

(** [StringRef::starts_with]. *)
Fixpoint starts_with (p t : text) : bool :=
  match p, t with
  | [], _ => true
  | _ :: _, [] => false
  | a :: p', b :: t' => Ascii.eqb a b && starts_with p' t'
  end.

(** Equality of texts ([StringRef::operator==]). *)
Fixpoint text_eqb (a b : text) : bool :=
  match a, b with
  | [], [] => true
  | x :: a', y :: b' => Ascii.eqb x y && text_eqb a' b'
  | _, _ => false
  end.

(** [StringRef::contains(char)]. *)
Definition contains_char (c : ascii) (t : text) : bool := existsb (Ascii.eqb c) t.

(** Decimal digit characters of a natural number, most significant first.
    Models the decimal rendering of [std::to_string] and [llvm::formatv("{0}")]
    for non-negative integers; [fuel] bounds the number of digits and is chosen
    large enough by [print_N]. *)
Fixpoint digits_of (fuel : nat) (n : N) (acc : text) : text :=
  match fuel with
  | O => acc
  | S f =>
      let acc' := ascii_of_N (48 + N.modulo n 10) :: acc in
      if (n <? 10)%N then acc' else digits_of f (N.div n 10) acc'
  end.

Definition print_N (n : N) : text := digits_of (S (N.to_nat (N.log2 n))) n [].

(** Decimal rendering of a signed integer ([std::to_string(int64_t)],
    [llvm::formatv("{0}", int64_t)]). *)
Definition print_Z (z : Z) : text :=
  match z with
  | Zneg p => "-"%char :: print_N (Npos p)
  | _ => print_N (Z.to_N z)
  end.

(** Integer limits ([std::numeric_limits<int64_t>]). *)
Definition int64_min : Z := (- 2 ^ 63)%Z.
Definition int64_max : Z := (2 ^ 63 - 1)%Z.
Definition is_int64 (z : Z) : Prop := (int64_min <= z <= int64_max)%Z.
