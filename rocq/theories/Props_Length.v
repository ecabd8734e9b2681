(** C97: how much of a document libxml is given. *)
From Coq Require Import List ZArith Ascii String.
From Verif Require Import Text LengthModel LengthSpec LengthProofs DtdModel.
Import ListNotations.
Open Scope Z_scope.

(** Exactly the documents of less than 2 GiB are read as they are, with and without assertions. *)
Theorem C97_short_documents_are_read_whole : forall b t, handed b t = Some t <-> size t < 2 ^ 31.
Proof. exact handed_whole. Qed.
Print Assumptions C97_short_documents_are_read_whole.
Example C97_whole_example : size (T "<vm name=""n""/>") < 2 ^ 31.
Proof. exact whole_example. Qed.

(** Of every document exactly these bytes are read. *)
Theorem C97_bytes_that_are_read : forall b t u, handed b t = Some u <->
  (b = Unchecked \/ size t mod 2 ^ 32 < 2 ^ 31) /\ first_bytes (Z.min (size t mod 2 ^ 32) (2 ^ 31 - 1)) t u.
Proof. exact handed_exactly. Qed.
Print Assumptions C97_bytes_that_are_read.

(** An assertion stops the program exactly for these documents. *)
Theorem C97_assertion_fails : forall b t, handed b t = None <-> b = Checked /\ 2 ^ 31 <= size t mod 2 ^ 32.
Proof. exact stops_exactly. Qed.
Print Assumptions C97_assertion_fails.
Example C97_assertion_example :
  exists t, handed Checked t = None /\ exists u, handed Unchecked t = Some u /\ size u = 2 ^ 31 - 1.
Proof. exact stops_example. Qed.

(** Every document of less than 2 GiB is also what is read of a longer one, even with assertions. *)
Theorem C97_longer_documents_look_like_short_ones : forall t, size t < 2 ^ 31 ->
  exists v, (forall b, handed b (t ++ v) = Some t) /\ t ++ v <> t.
Proof. exact any_front. Qed.
Print Assumptions C97_longer_documents_look_like_short_ones.
Theorem C97_assertions_notice_every_long_document_refuted : exists t u, handed Checked t = Some u /\ u <> t.
Proof. exact some_part. Qed.
Print Assumptions C97_assertions_notice_every_long_document_refuted.

(** Both document types are read as a whole. *)
Theorem C97_document_types_are_whole : forall b,
  handed b xml_dtd = Some xml_dtd /\ handed b sxfm_dtd = Some sxfm_dtd.
Proof. exact dtds_handed. Qed.
Print Assumptions C97_document_types_are_whole.
