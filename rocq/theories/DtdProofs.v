(** The declarations of the models are those of the document types. *)
From Coq Require Import List Ascii String Bool.
From Verif Require Import Text TextProofs SxfmModel XmlModel SxfmDocModel DtdModel DtdSpec.
Import ListNotations.

Lemma xml_declared : words [] xml_dtd = type_words declarations attribute_declarations.
Proof. vm_compute. reflexivity. Qed.
Definition free_attributes (n : text) : list (string * (bool * option (list string))) := map (fun a => (fst a, (snd a, None))) (sxfm_attributes n).
Lemma sxfm_declared : words [] sxfm_dtd = type_words sxfm_declarations free_attributes.
Proof. vm_compute. reflexivity. Qed.

(** Attributes are declared for declared elements only. *)
Lemma others_bare n : ~ In n (map (fun d => T (fst d)) declarations) -> attribute_declarations n = [].
Proof.
  intros N. unfold attribute_declarations. repeat match goal with |- context [text_eqb n ?x] => let E := fresh in destruct (text_eqb n x) eqn:E; [apply text_eqb_eq in E; subst n; exfalso; apply N; vm_compute; tauto|] end. reflexivity.
Qed.
Lemma sxfm_others_bare n : ~ In n (map (fun d => T (fst d)) sxfm_declarations) -> free_attributes n = [].
Proof.
  intros N. unfold free_attributes, sxfm_attributes. repeat match goal with |- context [text_eqb n ?x] => let E := fresh in destruct (text_eqb n x) eqn:E; [apply text_eqb_eq in E; subst n; exfalso; apply N; vm_compute; tauto|] end. reflexivity.
Qed.
