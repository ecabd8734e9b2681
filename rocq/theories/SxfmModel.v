(** The reader for the SXFM format.
    Models lib/Feature/FeatureModelParser.cpp:449-879 (FeatureModelSxfmParser) and
    include/vara/Feature/FeatureModelParser.h:161-244.

    Not modelled here: libxml2 and the validation against the DTD (462-501), for which see
    SxfmDocModel.v.  The model starts
    from the contents of the document: the attribute [name] of the root element, the
    attribute [indentation_string] and the text of [feature_tree], and the text of
    [constraints].  Messages on stderr are not modelled. *)
From Coq Require Import List ZArith NArith Arith Bool Ascii String.
From Verif Require Import Text LlvmInt ConstraintModel ConstraintParserModel SourceRangeModel FeatureTreeModel FeatureTransactionModel.
Import ListNotations.
Local Open Scope string_scope.
Local Open Scope list_scope.
Local Open Scope nat_scope.

(** How reading ends: with a value, by returning false or null, by an exception of
    [std::string::at], by a failed assertion or other undefined behaviour, or not within
    the given number of steps. *)
Inductive sx (A : Type) :=
| SxDone (a : A)
| SxRefused
| SxThrown
| SxUndefined
| SxEndless.
Arguments SxDone {A} a.
Arguments SxRefused {A}.
Arguments SxThrown {A}.
Arguments SxUndefined {A}.
Arguments SxEndless {A}.
Definition sx_bind {A B} (x : sx A) (f : A -> sx B) : sx B :=
  match x with
  | SxDone a => f a
  | SxRefused => SxRefused
  | SxThrown => SxThrown
  | SxUndefined => SxUndefined
  | SxEndless => SxEndless
  end.

(** ** Texts *)
(** [isspace] in the C locale. *)
Definition is_space (c : ascii) : bool := (code c =? 32) || ((9 <=? code c) && (code c <=? 13)).
(** The lines [std::getline] returns.  Simplification: a last empty line is kept, which
    makes no difference since blank lines are skipped (574, 765). *)
Fixpoint split_lines (t : text) : list text :=
  match t with
  | [] => [[]]
  | c :: r =>
      if code c =? 10 then [] :: split_lines r
      else match split_lines r with [] => [[c]] | l :: ls => (c :: l) :: ls end
  end.
(** Line without content (574, 765). *)
Definition blank (l : text) : bool := forallb is_space l.
(** [StringRef::substr(P, find(C, P) - P)], where an unsuccessful [find] takes the rest. *)
Definition until (c : ascii) (t : text) : text := take_while (fun x => negb (Ascii.eqb x c)) t.
(** [StringRef::count(StringRef)]: occurrences that do not overlap, none of the empty
    text; [skip] characters belong to an occurrence. *)
Fixpoint count_text (p : text) (skip : nat) (t : text) : nat :=
  match t with
  | [] => 0
  | _ :: r =>
      match skip with
      | S k => count_text p k r
      | 0 =>
          match p with
          | [] => 0
          | _ :: q => if starts_with p t then S (count_text p (List.length q) r) else count_text p 0 r
          end
      end
  end.
(** [std::string::find(std::string)]. *)
Fixpoint find_text (p t : text) : option nat :=
  if starts_with p t then Some 0
  else match t with [] => None | _ :: r => match find_text p r with Some i => Some (S i) | None => None end end.
Definition contains_text (p t : text) : bool := match find_text p t with Some _ => true | None => false end.

(** ** Cardinalities *)
(** [SxfmConstants::WILDCARD] (SxfmConstants.h:16). *)
Definition wildcard : Z := (-1)%Z.
(** [parseCardinality] (FeatureModelParser.cpp:858-879). *)
Definition parse_cardinality (t : text) : option Z :=
  if text_eqb t (T "*") then Some wildcard
  else match get_as_int64 10 t with
       | Some v => if ((- 2 ^ 31 <=? v) && (v <? 2 ^ 31))%Z then Some v else None
       | None => None
       end.
(** [extractCardinality] (FeatureModelParser.cpp:821-856).  Without a comma the first
    part reaches to the end of the line and the second one, starting at [npos + 1 = 0],
    is the line up to the first bracket. *)
Definition extract_cardinality (line : text) : option (Z * Z) :=
  match drop_while (fun x => negb (Ascii.eqb x "[")) line with
  | [] => None
  | _ :: r =>
      let upper :=
        match drop_while (fun x => negb (Ascii.eqb x ",")) r with
        | [] => until "]" line
        | _ :: r' => until "]" r'
        end in
      match parse_cardinality (until "," r), parse_cardinality upper with
      | Some lo, Some hi =>
          if ((lo =? 1) && ((hi =? 1) || (hi =? wildcard)))%Z then Some (lo, hi) else None
      | _, _ => None
      end
  end.

(** ** One line of the feature tree *)
Inductive ltype := LRoot | LMandatory | LOptional | LGroup (k : rkind) | LMember.
Record line := Line { l_level : nat; l_type : ltype; l_name : text; l_ids : list text }.

(** All matches of the regular expression [\([a-zA-Z\d_]*\)] without the brackets
    (674-679): the next search starts behind the match. *)
Fixpoint identifiers (skip : nat) (t : text) : list text :=
  match t with
  | [] => []
  | c :: r =>
      match skip with
      | S k => identifiers k r
      | 0 =>
          if Ascii.eqb c "(" then
            let w := take_while is_idchar r in
            match skipn (List.length w) r with
            | ")"%char :: _ => w :: identifiers (S (List.length w)) r
            | _ => identifiers 0 r
            end
          else identifiers 0 r
      end
  end.

(** The number of indentations before the first colon (583-592).  Simplification: there
    are less than 2^31 of them. *)
Definition level_of (ind t : text) : nat := count_text ind 0 (until ":" t).

(** The name in a line, given the text after the type (640-671). *)
Definition line_name (rest : text) : text :=
  let n := until " " rest in
  let n :=
    if contains_char "[" n then
      match until "[" rest with
      | [] => match drop_while (fun x => negb (Ascii.eqb x " ")) rest with _ :: s => s | [] => [] end
      | m => m
      end
    else n in
  until "(" n.

(** Type, name and identifiers of a line (604-684); the level is known. *)
Definition parse_line (ind : text) (level : nat) (t : text) : sx line :=
  let pos := level * List.length ind + 2 in
  match nth_error t (pos - 1) with
  | None => SxThrown
  | Some c =>
      let make ty p := SxDone (Line level ty (line_name (skipn (p + 1) t)) (identifiers 0 t)) in
      if Ascii.eqb c "r" then make LRoot pos
      else if Ascii.eqb c "m" then make LMandatory pos
      else if Ascii.eqb c "o" then make LOptional pos
      else if Ascii.eqb c "g" then
        match extract_cardinality t with
        | None => SxRefused
        | Some (_, hi) => make (LGroup (if (hi =? wildcard)%Z then ROr else RAlternative)) pos
        end
      else if Ascii.eqb c " " then make LMember (pos - 1)
      else SxRefused
  end.

(** ** The feature tree *)
(** [m[k] = v] on a map with natural numbers or texts as keys. *)
Fixpoint put {K V} (eqb : K -> K -> bool) (k : K) (v : V) (l : list (K * V)) : list (K * V) :=
  match l with
  | [] => [(k, v)]
  | (k', v') :: r => if eqb k k' then (k, v) :: r else (k', v') :: put eqb k v r
  end.
Fixpoint lookup {K V} (eqb : K -> K -> bool) (k : K) (l : list (K * V)) : option V :=
  match l with
  | [] => None
  | (k', v') :: r => if eqb k k' then Some v' else lookup eqb k r
  end.
Definition erase {K V} (eqb : K -> K -> bool) (k : K) (l : list (K * V)) : list (K * V) :=
  filter (fun e => negb (eqb k (fst e))) l.

(** The variables of [parseFeatureTree] (548-563); no level yet is [None]. *)
Record state := State {
  s_last : option nat;
  s_root : nat;
  s_count : nat;
  s_parents : list (nat * text);
  s_groups : list (nat * (text * rkind));
  s_ids : list (text * text);
  s_calls : list bcall
}.
Definition state_start : state := State None 0 0 [] [] [] [].

(** The identifiers of a line are stored; a name may not contain an identifier (674-684). *)
Fixpoint store_ids (name : text) (is : list text) (m : list (text * text)) : option (list (text * text)) :=
  match is with
  | [] => Some m
  | i :: r =>
      if negb (text_eqb i name) && contains_text i name then None
      else store_ids name r (put text_eqb i name m)
  end.

(** The calls for a group that ends (716-721). *)
Definition end_group (level : nat) (gs : list (nat * (text * rkind))) : list bcall :=
  match lookup Nat.eqb level gs with Some (n, k) => [BRelationship k n] | None => [] end.

(** One round of the loop (570-735). *)
Definition read_line (ind : text) (s : state) (t : text) : sx state :=
  if blank t then SxDone s
  else if negb (contains_char ":" t) then SxRefused
  else
    let level := level_of ind t in
    let root := match s_last s with None => level | Some _ => s_root s end in
    let over := match s_last s with Some l => l + 1 <? level | None => false end in
    if over then SxRefused
    else sx_bind (parse_line ind level t) (fun l =>
      match store_ids (l_name l) (l_ids l) (s_ids s) with
      | None => SxRefused
      | Some ids =>
          let (count, name) :=
            match l_name l with
            | [] => (S (s_count s), T "group_" ++ print_N (N.of_nat (S (s_count s))))
            | n => (s_count s, n)
            end in
          let made :=
            match l_type l with
            | LRoot => BRoot name
            | LOptional => BFeature (new_feature FBinary name true [] [])
            | _ => BFeature (new_feature FBinary name false [] [])
            end in
          let parents := put Nat.eqb level name (s_parents s) in
          let groups :=
            let gs := erase Nat.eqb level (s_groups s) in
            match l_type l with LGroup k => put Nat.eqb level (name, k) gs | _ => gs end in
          let finish edge :=
            SxDone (State (Some level) root count parents groups ids (s_calls s ++ made :: edge ++ end_group level (s_groups s))) in
          match s_last s with
          | None => finish []
          | Some _ =>
              if level =? root then SxRefused
              else
                match level with
                | 0 => SxUndefined
                | S k =>
                    match lookup Nat.eqb k parents with
                    | None => SxUndefined
                    | Some p => finish [BEdge p name]
                    end
                end
          end
      end).

(** [parseFeatureTree] (542-744) for the text of the element; [order] is the iteration
    order of the map of open groups (738-741). *)
Definition read_tree (order : list (nat * (text * rkind)) -> list (nat * (text * rkind))) (ind t : text) : sx (list bcall * list (text * text)) :=
  sx_bind (fold_left (fun o l => sx_bind o (fun s => read_line ind s l)) (split_lines t) (SxDone state_start)) (fun s =>
    SxDone (s_calls s ++ map (fun g => BRelationship (snd (snd g)) (fst (snd g))) (order (s_groups s)), s_ids s)).

(** ** Constraints *)
(** [std::string::replace(Pos, Key.length(), Value)]. *)
Definition replace_at (i : nat) (key value t : text) : text := firstn i t ++ value ++ skipn (i + List.length key) t.
(** The loop that replaces a text until it does not occur any more (788-792, 799-804). *)
Fixpoint replace_all (fuel : nat) (key value t : text) : option text :=
  match fuel with
  | 0 => None
  | S f => match find_text key t with None => Some t | Some i => replace_all f key value (replace_at i key value t) end
  end.

(** Descending order ([std::greater<std::string>], 757-761). *)
Fixpoint insert_key (k : text) (l : list text) : list text :=
  match l with
  | [] => [k]
  | x :: r => if text_ltb x k then k :: l else x :: insert_key k r
  end.
Definition sorted_keys (m : list (text * text)) : list text := fold_right insert_key [] (map fst m).

Fixpoint replace_keys (fuel : nat) (m : list (text * text)) (ks : list text) (t : text) : option text :=
  match ks with
  | [] => Some t
  | k :: r =>
      let value := match lookup text_eqb k m with Some v => v | None => [] end in
      let* t1 := if text_eqb value k then Some t else replace_all fuel k value t in
      replace_keys fuel m r t1
  end.

(** [StringRef::trim] with the default characters " \t\n\v\f\r". *)
Definition trim (t : text) : text := rev (drop_while is_space (rev (drop_while is_space t))).

(** The special keys (795-797), in one of the two iteration orders. *)
Definition special_keys (or_first : bool) : list (text * text) :=
  if or_first then [(T " or ", T " | "); (T " and ", T " & ")] else [(T " and ", T " & "); (T " or ", T " | ")].

(** The formula of a line after all replacements (775-805). *)
Definition formula (fuel : nat) (or_first : bool) (m : list (text * text)) (l : text) : option text :=
  let t := match drop_while (fun x => negb (Ascii.eqb x ":")) l with _ :: r => trim r | [] => [] end in
  let* t1 := replace_keys fuel m (sorted_keys m) t in
  fold_left (fun o k => let* x := o in replace_all fuel (fst k) (snd k) x) (special_keys or_first) (Some t1).

(** A mention of a feature by name. *)
Fixpoint named_leaves (c : cexpr string) : cexpr cref :=
  match c with
  | CBin o l r => CBin o (named_leaves l) (named_leaves r)
  | CUn o e => CUn o (named_leaves e)
  | CInt n => CInt n
  | CFeat s => CFeat (Own (T s))
  end.

(** One round of the loop over the constraints (763-811): unreadable formulas are
    dropped.  [sci] is the conversion of exponents, see ConstraintParserModel.v. *)
Definition read_constraint (sci : text -> option text) (fuel : nat) (or_first : bool) (m : list (text * text)) (l : text) : sx (list bcall) :=
  if blank l then SxDone []
  else if negb (contains_char ":" l) then SxRefused
  else
    match formula fuel or_first m l with
    | None => SxEndless
    | Some t =>
        match parse_text sci t with
        | Parsed c => SxDone [BConstraint KBoolean (named_leaves c)]
        | Rejected => SxDone []
        | ParseUb => SxUndefined
        | ParseFuel => SxEndless
        end
    end.
(** [parseConstraints] (746-819). *)
Definition read_constraints (sci : text -> option text) (fuel : nat) (or_first : bool) (m : list (text * text)) (t : text) : sx (list bcall) :=
  fold_left (fun o l => sx_bind o (fun cs => sx_bind (read_constraint sci fuel or_first m l) (fun c => SxDone (cs ++ c))))
    (split_lines t) (SxDone []).

(** ** The document *)
(** What libxml2 delivers: the attribute [name], the attribute [indentation_string] and
    the text of [feature_tree], and the text of [constraints]. *)
Record document := Document {
  d_name : option text;
  d_indentation : option text;
  d_tree : text;
  d_constraints : option text
}.
(** The default indentation (FeatureModelParser.h:241). *)
Definition default_indentation : text := [ascii_of_nat 9].

(** [parseVm] (503-540): the calls on the builder.  A missing name is a null pointer
    passed to [std::string] (507-508). *)
Definition read_calls (sci : text -> option text) (order : list (nat * (text * rkind)) -> list (nat * (text * rkind)))
    (fuel : nat) (or_first : bool) (d : document) : sx (list bcall) :=
  match d_name d with
  | None => SxUndefined
  | Some n =>
      let ind := match d_indentation d with Some i => i | None => default_indentation end in
      sx_bind (read_tree order ind (d_tree d)) (fun r =>
        match d_constraints d with
        | None => SxDone (BName n :: fst r)
        | Some t => sx_bind (read_constraints sci fuel or_first (snd r) t) (fun cs => SxDone (BName n :: fst r ++ cs))
        end)
  end.
(** [buildFeatureModel] (453-459) for a document that was read and validated. *)
Definition read_sxfm (ord : list nid -> list nid) (sci : text -> option text) (order : list (nat * (text * rkind)) -> list (nat * (text * rkind)))
    (fuel : nat) (or_first : bool) (h : heap) (d : document) : sx (heap * option fmodel) :=
  sx_bind (read_calls sci order fuel or_first d) (fun cs =>
    match build_calls ord h cs with
    | None => SxUndefined
    | Some r => SxDone r
    end).
