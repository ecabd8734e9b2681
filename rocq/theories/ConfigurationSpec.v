(** Notions used to state the properties of configurations. *)
From Coq Require Import List Ascii String ZArith NArith Bool Permutation.
From Verif Require Import Text NumSpec ConfigurationModel.
Import ListNotations.

(** Unsigned integer literals and their values. *)
Inductive magnitude : text -> N -> Prop :=
| M_hex x ds v : x = "x"%char \/ x = "X"%char -> ds <> [] -> radix_value 16 0 ds = Some v ->
    magnitude ("0"%char :: x :: ds) v
| M_bin x ds v : x = "b"%char \/ x = "B"%char -> ds <> [] -> radix_value 2 0 ds = Some v ->
    magnitude ("0"%char :: x :: ds) v
| M_oct ds v : ds <> [] -> radix_value 8 0 ds = Some v ->
    magnitude ("0"%char :: "o"%char :: ds) v
| M_zero d ds v : is_digit d = true -> radix_value 8 0 (d :: ds) = Some v ->
    magnitude ("0"%char :: d :: ds) v
| M_dec d ds : forallb is_digit (d :: ds) = true -> d <> "0"%char \/ ds = [] ->
    magnitude (d :: ds) (dec_value 0 (d :: ds)).

(** Integer literals that fit 64 bits. *)
Definition int_literal (t : text) (z : Z) : Prop :=
  is_int64 z /\
  ((exists v, magnitude t v /\ z = Z.of_N v) \/
   (exists r v, t = "-"%char :: r /\ magnitude r v /\ z = (- Z.of_N v)%Z)).

(** The texts read as booleans. *)
Definition bool_word (t : text) : Prop := lower t = T "true" \/ lower t = T "false".

(** The typed value of a text. *)
Inductive typed : text -> cvalue -> Prop :=
| Ty_true : typed (T "true") (VBool true)
| Ty_false t : bool_word t -> t <> T "true" -> typed t (VBool false)
| Ty_int t z : ~ bool_word t -> int_literal t z -> typed t (VInt z)
| Ty_string t : ~ bool_word t -> (forall z, ~ int_literal t z) -> typed t (VStr t).

(** The last value given to a name. *)
Definition last_given (ps : list (text * text)) (n t : text) : Prop :=
  exists a b, ps = a ++ (n, t) :: b /\ ~ In n (map fst b).

(** What is asked of the JSON library: printing does not depend on the order of
    the fields, and parsing a printed object gives its fields in some order. *)
Definition json_correct (J : json) (ok : text -> Prop) : Prop :=
  forall fs, NoDup (map fst fs) -> Forall (fun f => ok (fst f) /\ ok (snd f)) fs ->
    (forall fs', Permutation fs fs' -> j_print J fs = j_print J fs') /\
    exists gs, j_parse J (j_print J fs) = Some (JObject gs) /\
      Permutation gs (map (fun f => (fst f, JString (snd f))) fs).

(** Two configurations with the same options and typed values. *)
Definition same_options (c d : config) : Prop := forall n, find_option c n = find_option d n.
