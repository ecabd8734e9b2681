(** Source locations, member offsets and source ranges.
    Models include/vara/Feature/FeatureSourceRange.h and the location lists of
    include/vara/Feature/Feature.h. *)
From Coq Require Import List Ascii String ZArith NArith Arith Bool.
From Verif Require Import Text TextSearch.
Import ListNotations.

(** ** Locations *)

(** FeatureSourceLocation (FeatureSourceRange.h:52-91).
    Simplification: [unsigned] members are natural numbers; no arithmetic is done
    on them. *)
Record location := Loc { l_line : N; l_column : N }.

(** [operator==] (73-76), [operator<] (78-82), [operator>] (84-86). *)
Definition loc_eqb (a b : location) : bool :=
  (l_line a =? l_line b)%N && (l_column a =? l_column b)%N.
Definition loc_ltb (a b : location) : bool :=
  (l_line a <? l_line b)%N || ((l_line a =? l_line b)%N && (l_column a <? l_column b)%N).
Definition loc_gtb (a b : location) : bool := loc_ltb b a.

(** [toString] (69-71). *)
Definition loc_text (a : location) : text := print_N (l_line a) ++ T ":" ++ print_N (l_column a).

(** ** Member offsets *)

(** FeatureMemberOffset (93-171). *)
Record member_offset := MemberOffset { mo_class : list text; mo_member : text }.

Definition colons : text := T "::".

(** [splitMemberOffset] (149-157); without separator [rsplit] leaves the second
    part empty. *)
Definition split_member (t : text) : option (text * text) :=
  let (a, b) := match split_last colons t with Some p => p | None => (t, []) end in
  match b with [] => None | _ => Some (a, b) end.

(** [splitClass] (159-167). *)
Definition split_class (t : text) : list text :=
  match t with [] => [] | _ => split_all (List.length t) colons t end.

(** [createFeatureMemberOffset] (95-103) and [isMemberOffsetFormat] (105-108). *)
Definition create_member_offset (t : text) : option member_offset :=
  match split_member t with
  | Some (a, b) => Some (MemberOffset (split_class a) b)
  | None => None
  end.
Definition is_member_offset (t : text) : bool :=
  match split_member t with Some _ => true | None => false end.

(** [className] without argument (116-124): the first component, then each
    further one behind two colons. *)
Definition class_name (m : member_offset) : text :=
  match mo_class m with
  | [] => []
  | c :: r => c ++ flat_map (fun d => colons ++ d) r
  end.

(** [className(Nested)] (112-115); [None]: the assertion fails, out of bounds. *)
Definition nested_class (m : member_offset) (n : nat) : option text :=
  if n <? List.length (mo_class m)
  then nth_error (mo_class m) (List.length (mo_class m) - n - 1) else None.

(** [toString] (132-134). *)
Definition member_text (m : member_offset) : text := class_name m ++ colons ++ mo_member m.

(** [operator==] (136-138). *)
Fixpoint texts_eqb (a b : list text) : bool :=
  match a, b with
  | [], [] => true
  | x :: a', y :: b' => text_eqb x y && texts_eqb a' b'
  | _, _ => false
  end.
Definition member_eqb (a b : member_offset) : bool :=
  text_eqb (mo_member a) (mo_member b) && texts_eqb (mo_class a) (mo_class b).

(** ** Ranges *)

Inductive category := Necessary | Inessential.
Definition category_eqb (a b : category) : bool :=
  match a, b with Necessary, Necessary | Inessential, Inessential => true | _, _ => false end.

(** FeatureRevisionRange (30-50). *)
Record revision_range := Revisions { rv_introduced : text; rv_removed : option text }.

(** Comparison of [std::filesystem::path] as on POSIX systems: root directory and
    elements; repeated separators count once, a trailing separator gives a last
    empty element. *)
Definition slash : text := T "/".
Definition path_absolute (p : text) : bool := starts_with slash p.
Definition path_elements (p : text) : list text :=
  let es := filter (fun e => negb (text_eqb e [])) (split_all (List.length p) slash p) in
  match es with
  | [] => []
  | _ => if starts_with slash (rev p) then es ++ [[]] else es
  end.
Definition path_eqb (p q : text) : bool :=
  Bool.eqb (path_absolute p) (path_absolute q) && texts_eqb (path_elements p) (path_elements q).

(** FeatureSourceRange (26, 257-262). *)
Record source_range := SourceRange {
  sr_path : text;
  sr_start : option location;
  sr_end : option location;
  sr_category : category;
  sr_member : option member_offset;
  sr_revision : option revision_range
}.

(** Comparison of [std::optional]. *)
Definition opt_eqb {A} (e : A -> A -> bool) (a b : option A) : bool :=
  match a, b with
  | Some x, Some y => e x y
  | None, None => true
  | _, _ => false
  end.

(** [operator==] (246-250). *)
Definition range_eqb (a b : source_range) : bool :=
  category_eqb (sr_category a) (sr_category b) && path_eqb (sr_path a) (sr_path b) &&
  opt_eqb loc_eqb (sr_start a) (sr_start b) && opt_eqb loc_eqb (sr_end a) (sr_end b) &&
  opt_eqb member_eqb (sr_member a) (sr_member b).

(** [toString] (231-244); the dash is the UTF-8 text of U+2013. *)
Definition range_text (r : source_range) : text :=
  sr_path r ++
  match sr_start r with Some l => T ":" ++ loc_text l | None => [] end ++
  match sr_end r with Some l => ascii_of_nat 226 :: ascii_of_nat 128 :: ascii_of_nat 147 :: loc_text l | None => [] end ++
  match sr_member r with Some m => T " MemberOffset: " ++ member_text m | None => [] end.

(** ** Location lists of a feature *)

(** [addLocation] (Feature.h:96-98). *)
Definition add_location (ls : list source_range) (r : source_range) : list source_range := ls ++ [r].

(** [removeLocation] (Feature.h:100-103): erases at the position found; [None]:
    the range is not found, erasing at the end is undefined. *)
Fixpoint remove_location (ls : list source_range) (r : source_range) : option (list source_range) :=
  match ls with
  | [] => None
  | x :: l => if range_eqb x r then Some l
              else match remove_location l r with Some l' => Some (x :: l') | None => None end
  end.

(** [updateLocation] (Feature.h:105-113). *)
Fixpoint update_location (ls : list source_range) (old new : source_range) : bool * list source_range :=
  match ls with
  | [] => (false, [])
  | x :: l => if range_eqb x old then (true, new :: l)
              else let (b, l') := update_location l old new in (b, x :: l')
  end.
