(** When two names differ in case only. *)
From Coq Require Import List Arith Bool Ascii.
From Verif Require Import Text FeatureTreeModel.
Import ListNotations.

(** The same character, or the same letter of the alphabet. *)
Definition same_letter (c d : ascii) : Prop :=
  c = d \/ exists k, k < 26 /\ (c = ascii_of_nat (65 + k) \/ c = ascii_of_nat (97 + k)) /\ (d = ascii_of_nat (65 + k) \/ d = ascii_of_nat (97 + k)).
Definition same_but_case (s u : text) : Prop := Forall2 same_letter s u.
(** The features named [a] and [b] are called the same but for case. *)
Definition namesakes (h : heap) (a b : nid) : Prop :=
  exists f g, feature_at h a = Some f /\ feature_at h b = Some g /\ same_but_case (f_name f) (f_name g).
(** No two features of the model are namesakes. *)
Definition case_distinct (m : fmodel) : Prop :=
  forall s u i j, get_feature m s = Some i -> get_feature m u = Some j -> same_but_case s u -> s = u.
(** [x] is a feature, and no two features of the list are namesakes. *)
Definition live (h : heap) (x : nid) : Prop := exists f, feature_at h x = Some f.
Definition apart_all (h : heap) (s : list nid) : Prop := forall a b x y z, s = x ++ a :: y ++ b :: z -> ~ namesakes h a b.
