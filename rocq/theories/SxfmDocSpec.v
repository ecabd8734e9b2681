(** What an SXFM document looks like.  Independent of how it is checked and read. *)
From Coq Require Import List NArith Arith Bool Ascii String.
From Verif Require Import Text XmlModel.
Import ListNotations.
Local Open Scope string_scope.
Local Open Scope list_scope.

(** In XML no element has an attribute twice. *)
Inductive well_formed : xml -> Prop :=
| well_formed_elem n a b es : NoDup (map fst a) -> Forall well_formed es -> well_formed (Elem n a b es).

Definition blanks (t : text) : Prop := forall c, In c t -> In (code c) [32; 9; 10; 11; 12; 13].
(** An attribute that may be left out. *)
Definition given (k : string) (o : option text) : list (text * text) := match o with Some v => [(T k, v)] | None => [] end.

Inductive is_data : xml -> Prop :=
| data_elem n b : is_data (Elem (T "data") [(T "name", n)] b []).
Inductive is_meta : xml -> Prop :=
| meta_elem b ds : blanks b -> Forall is_data ds -> is_meta (Elem (T "meta") [] b ds).

(** A document with the given name, indentation, tree and constraints. *)
Inductive sxfm_document (n ind : option text) (t : text) (c : option text) : xml -> Prop :=
| sxfm_document_elem b ms : blanks b -> ms = [] \/ (exists m, ms = [m] /\ is_meta m) ->
    sxfm_document n ind t c
      (Elem (T "feature_model") (given "name" n) b
         (ms ++ Elem (T "feature_tree") (given "indentation_string" ind) t [] ::
          match c with Some x => [Elem (T "constraints") [] x []] | None => [] end)).

(** Everything else that is declared. *)
Inductive sxfm_fragment : option text -> xml -> Prop :=
| fragment_data n b : sxfm_fragment (Some n) (Elem (T "data") [(T "name", n)] b [])
| fragment_meta e : is_meta e -> sxfm_fragment None e
| fragment_tree i b : sxfm_fragment None (Elem (T "feature_tree") (given "indentation_string" i) b [])
| fragment_constraints b : sxfm_fragment None (Elem (T "constraints") [] b []).
