(** Model of the length that the readers hand to libxml together with the text of a document
    ([checkedNarrowingSignConversion], include/vara/Utils/VariantUtil.h:22-29, called in
    lib/Feature/FeatureModelParser.cpp:409-412, 425-426, 463-466 and 481-482).

    Simplifications: [unsigned] and [int] have 32 bits and [size_t] at least as many as lengths
    need; libxml is not modelled, it looks at the bytes it is given (C46, C73). *)
From Coq Require Import List ZArith Bool Ascii.
From Verif Require Import Text.
Import ListNotations.
Open Scope Z_scope.

(** With or without [assert] (NDEBUG). *)
Inductive build := Checked | Unchecked.
(** The length is converted to the [unsigned] parameter when the function is called. *)
Definition as_unsigned (n : Z) : Z := n mod 2 ^ 32.
(** [std::numeric_limits<int>::max()]. *)
Definition int_max : Z := 2 ^ 31 - 1.
(** VariantUtil.h:22-29; [None]: the assertion fails. *)
Definition narrowed (b : build) (v : Z) : option Z :=
  if v <=? int_max then Some v
  else match b with Checked => None | Unchecked => Some int_max end.

(** The bytes libxml is given of a document or document type ([xmlCtxtReadMemory],
    [xmlParserInputBufferCreateMem]). *)
Definition handed (b : build) (t : text) : option text :=
  match narrowed b (as_unsigned (Z.of_nat (List.length t))) with
  | Some n => Some (firstn (Z.to_nat n) t)
  | None => None
  end.
