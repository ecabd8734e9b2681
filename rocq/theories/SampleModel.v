(** Sample sets: writing configurations as flags, reading configurations from a table.
    Models lib/Sampling/SampleSetWriter.cpp and lib/Sampling/SampleSetParser.cpp.

    Not modelled: llvm::yaml::Output, which prints the map of texts, and the CSV library.
    The model ends with the contents of the map and starts with the table the library
    delivers. *)
From Coq Require Import List NArith Arith Bool Ascii String.
From Verif Require Import Text ConfigurationModel FeatureTreeModel.
Import ListNotations.
Local Open Scope string_scope.
Local Open Scope list_scope.

(** The features of a model in iteration order (FeatureModel.h:163-171). *)
Definition model_features (ord : list nid -> list nid) (h : heap) (m : fmodel) : option (list nid) :=
  iterate ord (S (h_next h)) h (m_root m).

(** ** Writing *)
Definition quote : text := [ascii_of_nat 34].
(** One round of the loop over the features (SampleSetWriter.cpp:23-41): the text
    collected so far and the feature. *)
Definition append_flag (h : heap) (c : config) (s : text) (i : nid) : option text :=
  let* f := feature_at h i in
  match option_value c (f_name f) with
  | Some v =>
      if negb (text_eqb v (T "false")) && negb (text_eqb (f_output f) []) then
        let s := if Nat.eqb (List.length s) 1 then s else s ++ T ", " in
        Some (s ++ quote ++ f_output f ++ match f_kind f with FNumeric _ _ => v | _ => [] end ++ quote)
      else Some s
  | None => Some s
  end.
(** The text of one configuration (SampleSetWriter.cpp:21-42). *)
Definition flags_text (h : heap) (fs : list nid) (c : config) : option text :=
  let* s := fold_left (fun o i => let* s := o in append_flag h c s i) fs (Some (T "[")) in
  Some (s ++ T "]").

(** [std::map<std::string, std::string>]: assigning a key; the entries are in ascending
    order of the keys. *)
Fixpoint map_assign (k v : text) (l : list (text * text)) : list (text * text) :=
  match l with
  | [] => [(k, v)]
  | (k', v') :: r => if text_ltb k k' then (k, v) :: l else if text_ltb k' k then (k', v') :: map_assign k v r else (k, v) :: r
  end.
(** The loop over the configurations (SampleSetWriter.cpp:17-45). *)
Fixpoint write_from (h : heap) (fs : list nid) (n : nat) (cs : list config) (l : list (text * text)) : option (list (text * text)) :=
  match cs with
  | [] => Some l
  | c :: r => let* s := flags_text h fs c in write_from h fs (S n) r (map_assign (print_N (N.of_nat n)) s l)
  end.
(** [writeConfigurations] (SampleSetWriter.cpp:10-53) up to the printing of the map. *)
Definition write_configurations (ord : list nid -> list nid) (h : heap) (m : fmodel) (cs : list config) : option (list (text * text)) :=
  let* fs := model_features ord h m in
  write_from h fs 0 cs [].

(** ** Reading *)
(** What the CSV library delivers: the names of the columns, and for every row the text
    in the column of a given name. *)
Record table := Table { t_columns : list text; t_rows : list (text -> text) }.

(** One round of the loop over the features (SampleSetParser.cpp:17-33). *)
Definition read_cell (h : heap) (columns : list text) (row : text -> text) (c : config) (i : nid) : option config :=
  let* f := feature_at h i in
  if existsb (text_eqb (f_name f)) columns then
    match f_kind f with
    | FBinary | FRoot => Some (set_option c (f_name f) (if text_eqb (row (f_name f)) (T "0") then T "false" else T "true"))
    | _ => Some (set_option c (f_name f) (row (f_name f)))
    end
  else Some c.
Definition read_row (h : heap) (fs : list nid) (columns : list text) (row : text -> text) : option config :=
  fold_left (fun o i => let* c := o in read_cell h columns row c i) fs (Some []).
(** [readConfigurations] (SampleSetParser.cpp:7-37): rows are inserted at the front. *)
Definition read_table (ord : list nid -> list nid) (h : heap) (m : fmodel) (t : table) : option (list config) :=
  let* fs := model_features ord h m in
  fold_left (fun o row => let* cs := o in let* c := read_row h fs (t_columns t) row in Some (c :: cs)) (t_rows t) (Some []).
