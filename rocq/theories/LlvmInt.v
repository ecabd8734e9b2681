(** Model of [llvm::StringRef::getAsInteger] for [int64_t].

    The routine belongs to LLVM (llvm/lib/Support/StringRef.cpp,
    [GetAutoSenseRadix], [consumeUnsignedInteger], [consumeSignedInteger],
    [getAsSignedInteger]); vara-feature calls it in ConstraintParser.h:285
    and Configuration.h:117.  The
    transcription follows the LLVM sources, including the wrap-around overflow
    test on [unsigned long long]. *)
From Coq Require Import List Ascii String ZArith NArith Arith Bool.
From Verif Require Import Text.
Import ListNotations.

(** Digit value of a character as in [consumeUnsignedInteger]: 0-9, a-z, A-Z. *)
Definition char_val (c : ascii) : option N :=
  if is_digit c then Some (N.of_nat (code c - 48))
  else if is_lower c then Some (N.of_nat (code c - 97 + 10))
  else if is_upper c then Some (N.of_nat (code c - 65 + 10))
  else None.

(** [GetAutoSenseRadix]: radix and remaining text. *)
Definition auto_radix (t : text) : N * text :=
  match t with
  | [] => (10%N, [])
  | a :: t' =>
      if starts_with (T "0x") (lower t) then (16%N, skipn 2 t)
      else if starts_with (T "0b") (lower t) then (2%N, skipn 2 t)
      else if starts_with (T "0o") t then (8%N, skipn 2 t)
      else match t' with
           | b :: _ => if Ascii.eqb a "0"%char && is_digit b then (8%N, t') else (10%N, t)
           | [] => (10%N, t)
           end
  end.

(** 2^64, the modulus of [unsigned long long]. *)
Definition two64 : N := (2 ^ 64)%N.

(** The digit loop of [consumeUnsignedInteger].  [None] is the overflow exit
    ([Result / Radix < PrevResult]); otherwise the value and the unread rest. *)
Fixpoint digit_loop (radix : N) (acc : N) (t : text) : option (N * text) :=
  match t with
  | [] => Some (acc, [])
  | c :: r =>
      match char_val c with
      | None => Some (acc, t)
      | Some v =>
          if (radix <=? v)%N then Some (acc, t)
          else
            let next := ((acc * radix + v) mod two64)%N in
            if (next / radix <? acc)%N then None else digit_loop radix next r
      end
  end.

(** [consumeUnsignedInteger]; [radix0 = 0] requests auto detection. *)
Definition consume_unsigned (radix0 : N) (t : text) : option (N * text) :=
  let (radix, t1) := if (radix0 =? 0)%N then auto_radix t else (radix0, t) in
  match t1 with
  | [] => None
  | _ =>
      match digit_loop radix 0 t1 with
      | None => None
      | Some (v, rest) => if List.length rest =? List.length t1 then None else Some (v, rest)
      end
  end.

(** Reinterpretation of an [unsigned long long] as [long long]. *)
Definition to_signed (n : N) : Z :=
  if (n <? 2 ^ 63)%N then Z.of_N n else (Z.of_N n - 2 ^ 64)%Z.

(** [consumeSignedInteger]. *)
Definition consume_signed (radix0 : N) (t : text) : option (Z * text) :=
  match t with
  | "-"%char :: t2 =>
      match consume_unsigned radix0 t2 with
      | None => None
      | Some (v, rest) =>
          let neg := ((two64 - v) mod two64)%N in
          if (0 <? to_signed neg)%Z then None else Some (to_signed neg, rest)
      end
  | _ =>
      match consume_unsigned radix0 t with
      | None => None
      | Some (v, rest) =>
          if (to_signed v <? 0)%Z then None else Some (to_signed v, rest)
      end
  end.

(** [StringRef::getAsInteger(Radix, int64_t&)]: [None] is the failure return. *)
Definition get_as_int64 (radix0 : N) (t : text) : option Z :=
  match consume_signed radix0 t with
  | Some (v, []) => Some v
  | _ => None
  end.
