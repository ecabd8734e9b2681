(** Properties C13, C14, C15 and C50: source ranges. *)
From Coq Require Import List Ascii String ZArith NArith Arith Bool.
From Verif Require Import Text TextSearch SourceRangeModel SourceRangeSpec SourceRangeProofs.
Import ListNotations.

(** ** C13: source locations are totally ordered *)

Theorem C13_order_is_reading_order : forall a b, loc_ltb a b = true <-> before a b.
Proof. exact loc_ltb_before. Qed.
Print Assumptions C13_order_is_reading_order.

Theorem C13_irreflexive : forall a, loc_ltb a a = false.
Proof. exact loc_irrefl. Qed.
Print Assumptions C13_irreflexive.

Theorem C13_transitive : forall a b c, loc_ltb a b = true -> loc_ltb b c = true -> loc_ltb a c = true.
Proof. exact loc_trans. Qed.
Print Assumptions C13_transitive.

Theorem C13_exactly_one : forall a b, one_of_three (loc_ltb a b) (loc_eqb a b) (loc_gtb a b).
Proof. exact loc_trichotomy. Qed.
Print Assumptions C13_exactly_one.

Theorem C13_equality : forall a b, loc_eqb a b = true <-> a = b.
Proof. exact loc_eqb_eq. Qed.
Print Assumptions C13_equality.

Example C13_example : loc_ltb (Loc 3 9) (Loc 4 1) = true /\ loc_ltb (Loc 4 1) (Loc 4 2) = true /\
  loc_gtb (Loc 4 2) (Loc 3 9) = true.
Proof. repeat split. Qed.

(** ** C14: member offsets round trip through text *)

Theorem C14_accepted : forall t,
  (exists m, create_member_offset t = Some m) <-> exists a b, last_part t a b /\ b <> [].
Proof. exact create_accepted. Qed.
Print Assumptions C14_accepted.

Theorem C14_format_check : forall t,
  is_member_offset t = true <-> exists a b, last_part t a b /\ b <> [].
Proof. exact is_member_offset_spec. Qed.
Print Assumptions C14_format_check.

Theorem C14_round_trip : forall t m, create_member_offset t = Some m ->
  member_text m = t /\ last_part t (class_name m) (mo_member m) /\ mo_member m <> [] /\
  Forall (fun p => ~ occurs (T "::") p) (mo_class m) /\ class_name m = join (T "::") (mo_class m).
Proof. exact create_round_trip. Qed.
Print Assumptions C14_round_trip.

Theorem C14_equality : forall t t' m m',
  create_member_offset t = Some m -> create_member_offset t' = Some m' ->
  (member_eqb m m' = true <-> t = t').
Proof. exact member_eq_text. Qed.
Print Assumptions C14_equality.

Theorem C14_nested : forall m n c, nested_class m n = Some c <->
  exists outer inner, mo_class m = outer ++ c :: inner /\ List.length inner = n.
Proof. exact nested_spec. Qed.
Print Assumptions C14_nested.

Example C14_example :
  create_member_offset (T "ns::Outer::Inner::field") =
    Some (MemberOffset [T "ns"; T "Outer"; T "Inner"] (T "field")) /\
  nested_class (MemberOffset [T "ns"; T "Outer"; T "Inner"] (T "field")) 1 = Some (T "Outer") /\
  create_member_offset (T "ns::Outer::") = None /\ create_member_offset (T "field") = None /\
  create_member_offset (T "::field") = Some (MemberOffset [] (T "field")).
Proof. repeat split. Qed.

(** ** C15: source range equality *)

Theorem C15_equality : forall a b, range_eqb a b = true <->
  sr_category a = sr_category b /\ same_path (sr_path a) (sr_path b) /\
  sr_start a = sr_start b /\ sr_end a = sr_end b /\ sr_member a = sr_member b.
Proof. exact range_eqb_spec. Qed.
Print Assumptions C15_equality.

Theorem C15_reflexive : forall a, range_eqb a a = true.
Proof. exact range_refl. Qed.
Print Assumptions C15_reflexive.

Theorem C15_symmetric : forall a b, range_eqb a b = range_eqb b a.
Proof. exact range_sym. Qed.
Print Assumptions C15_symmetric.

Theorem C15_transitive : forall a b c, range_eqb a b = true -> range_eqb b c = true -> range_eqb a c = true.
Proof. exact range_trans. Qed.
Print Assumptions C15_transitive.

Theorem C15_revisions_ignored : forall p s e c m r r',
  range_eqb (SourceRange p s e c m r) (SourceRange p s e c m r') = true.
Proof. exact range_ignores_revision. Qed.
Print Assumptions C15_revisions_ignored.

Example C15_example :
  range_eqb (SourceRange (T "src//a.cpp") (Some (Loc 1 2)) (Some (Loc 3 4)) Necessary None None)
            (SourceRange (T "src/a.cpp") (Some (Loc 1 2)) (Some (Loc 3 4)) Necessary None
               (Some (Revisions (T "abc") None))) = true /\
  range_eqb (SourceRange (T "src/") None None Necessary None None)
            (SourceRange (T "src") None None Necessary None None) = false /\
  range_eqb (SourceRange (T "/src") None None Necessary None None)
            (SourceRange (T "src") None None Necessary None None) = false.
Proof. repeat split. Qed.

(** ** C50: source range bookkeeping of a feature *)

Theorem C50_add : forall ls r, add_location ls r = ls ++ [r].
Proof. exact add_location_spec. Qed.
Print Assumptions C50_add.

Theorem C50_remove : forall ls r ls', remove_location ls r = Some ls' <->
  exists a x b, first_equal ls r x a b /\ ls' = a ++ b.
Proof. exact remove_spec. Qed.
Print Assumptions C50_remove.

Theorem C50_remove_undefined : forall ls r,
  remove_location ls r = None <-> Forall (fun y => range_eqb y r = false) ls.
Proof. exact remove_none. Qed.
Print Assumptions C50_remove_undefined.

Theorem C50_update : forall ls old new ls', update_location ls old new = (true, ls') <->
  exists a x b, first_equal ls old x a b /\ ls' = a ++ new :: b.
Proof. exact update_spec. Qed.
Print Assumptions C50_update.

Theorem C50_update_missing : forall ls old new,
  Forall (fun y => range_eqb y old = false) ls -> update_location ls old new = (false, ls).
Proof. exact update_missing. Qed.
Print Assumptions C50_update_missing.

Theorem C50_add_then_remove : forall ls r, Forall (fun y => range_eqb y r = false) ls ->
  remove_location (add_location ls r) r = Some ls.
Proof. exact add_then_remove. Qed.
Print Assumptions C50_add_then_remove.

Definition C50_range (line : N) (rev : option revision_range) : source_range :=
  SourceRange (T "a.cpp") (Some (Loc line 1)) (Some (Loc line 9)) Necessary None rev.

Example C50_example :
  remove_location [C50_range 1 None; C50_range 2 None; C50_range 1 (Some (Revisions (T "x") None))] (C50_range 1 None)
    = Some [C50_range 2 None; C50_range 1 (Some (Revisions (T "x") None))] /\
  update_location [C50_range 1 None; C50_range 2 None] (C50_range 2 None) (C50_range 5 None)
    = (true, [C50_range 1 None; C50_range 5 None]) /\
  remove_location [C50_range 1 None] (C50_range 2 None) = None.
Proof. repeat split. Qed.
