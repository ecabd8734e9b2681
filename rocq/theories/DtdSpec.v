(** How declarations are spelled in a document type (XML 1.0, sections 3.2 and 3.3), up to
    blanks. *)
From Coq Require Import List Ascii String Bool.
From Verif Require Import Text SourceRangeModel SxfmModel XmlModel.
Import ListNotations.
Local Open Scope string_scope.
Local Open Scope list_scope.

(** White space of XML 1.0, section 2.3. *)
Definition blanks : text := map ascii_of_nat [32; 9; 13; 10].
(** The words and marks of a text; blanks separate words. *)
Definition marks : text := T "<>!(),|?*#" ++ [ascii_of_nat 34].
Definition flush (w : text) (l : list text) : list text := match w with [] => l | _ => w :: l end.
Fixpoint words (w t : text) : list text :=
  match t with
  | [] => flush w []
  | c :: r => if contains_char c marks then flush w ([c] :: words [] r)
              else if contains_char c blanks then flush w (words [] r)
              else words (w ++ [c]) r
  end.

(** A content model: groups of a sequence or a choice, [?] and [*]. *)
Fixpoint separated (s : string) (l : list (list text)) : list text :=
  match l with [] => [] | [a] => a | a :: r => a ++ T s :: separated s r end.
Fixpoint sequence_of (p : particle) : list particle := match p with PSeq a b => a :: sequence_of b | _ => [p] end.
Fixpoint item (p : particle) : list text :=
  match p with
  | PTag s => [T s]
  | PMany s => [T s; T "*"]
  | PMaybe p => item p ++ [T "?"]
  | PSeq p q => T "(" :: item p ++ T "," :: item q ++ [T ")"]
  | PAlt p q => T "(" :: item p ++ T "|" :: item q ++ [T ")"]
  end.
Definition model_words (d : declaration) : list text :=
  T "(" :: match d with OnlyText => [T "#"; T "PCDATA"] | Below p => separated "," (map item (sequence_of p)) end ++ [T ")"].
Definition element_words (d : string * declaration) : list text :=
  [T "<"; T "!"; T "ELEMENT"; T (fst d)] ++ model_words (snd d) ++ [T ">"].

(** An attribute: free text, required or not, or one of some values, of which the first is
    the default. *)
Definition attribute_words (a : string * (bool * option (list string))) : list text :=
  T (fst a) :: match snd a with
    | (required, None) => [T "CDATA"; T "#"; T (if required : bool then "REQUIRED" else "IMPLIED")]
    | (_, Some vs) => T "(" :: separated "|" (map (fun v => [T v]) vs) ++ [T ")"; [ascii_of_nat 34]; T (hd "" vs); [ascii_of_nat 34]]
    end.
Definition attlist_words (n : string) (l : list (string * (bool * option (list string)))) : list text :=
  match l with [] => [] | _ => [T "<"; T "!"; T "ATTLIST"; T n] ++ flat_map attribute_words l ++ [T ">"] end.
Definition type_words (ds : list (string * declaration)) (attrs : text -> list (string * (bool * option (list string)))) : list text :=
  flat_map (fun d => element_words d ++ attlist_words (fst d) (attrs (T (fst d)))) ds.
