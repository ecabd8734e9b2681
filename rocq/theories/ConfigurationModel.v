(** Configurations: option values, the option map, dumping and loading.
    Models include/vara/Configuration/Configuration.h and
    lib/Configuration/Configuration.cpp. *)
From Coq Require Import List Ascii String ZArith NArith Bool.
From Verif Require Import Text LlvmInt.
Import ListNotations.

(** ** Option values *)

(** The variant stored in a ConfigurationOption (Configuration.h:127). *)
Inductive cvalue := VBool (b : bool) | VInt (z : Z) | VStr (t : text).

(** [convert] (Configuration.h:110-121). *)
Definition convert (t : text) : cvalue :=
  if text_eqb (lower t) (T "true") || text_eqb (lower t) (T "false")
  then VBool (text_eqb t (T "true"))
  else match get_as_int64 0 t with
       | Some z => VInt z
       | None => VStr t
       end.

(** [asString] (Configuration.h:63-79). *)
Definition as_string (v : cvalue) : text :=
  match v with
  | VStr t => t
  | VBool b => if b then T "true" else T "false"
  | VInt z => print_Z z
  end.

(** [toString] (Configuration.h:85-87). *)
Definition option_text (n : text) (v : cvalue) : text := n ++ T ": " ++ as_string v.

(** ** The option map *)

(** [OptionMappings] (Configuration.h:182).  Simplification: the options are kept
    in the order in which their names were first set; the order in which the hash
    table is iterated is a separate argument where it matters. *)
Definition config := list (text * cvalue).

(** [addConfigurationOption] (Configuration.cpp:45-48). *)
Fixpoint put (c : config) (n : text) (v : cvalue) : config :=
  match c with
  | [] => [(n, v)]
  | (m, w) :: r => if text_eqb m n then (m, v) :: r else (m, w) :: put r n v
  end.

(** [setConfigurationOption] (Configuration.cpp:50-55). *)
Definition set_option (c : config) (n t : text) : config := put c n (convert t).

(** A sequence of calls. *)
Definition set_options (c : config) (ps : list (text * text)) : config :=
  fold_left (fun c p => set_option c (fst p) (snd p)) ps c.

Fixpoint find_option (c : config) (n : text) : option cvalue :=
  match c with
  | [] => None
  | (m, w) :: r => if text_eqb m n then Some w else find_option r n
  end.

(** [configurationOptionValue] (Configuration.cpp:57-64). *)
Definition option_value (c : config) (n : text) : option text :=
  option_map as_string (find_option c n).

(** [begin] and [end] (Configuration.h:139-157): positions in the table; the
    const overload of [begin] returns the end. *)
Definition begin_mut (c : config) : nat := 0.
Definition begin_const (c : config) : nat := List.length c.
Definition end_pos (c : config) : nat := List.length c.
Definition between {A} (l : list A) (i j : nat) : list A := firstn (j - i) (skipn i l).
Definition iterate_mut (c : config) : config := between c (begin_mut c) (end_pos c).
Definition iterate_const (c : config) : config := between c (begin_const c) (end_pos c).

(** ** Dumping and loading *)

(** What [llvm::json::parse] can return, as far as the code looks at it. *)
Inductive jvalue := JString (t : text) | JObject (fs : list (text * jvalue)) | JOther.

(** The JSON library: printing an object of strings and parsing a text. *)
Record json := Json {
  j_print : list (text * text) -> text;
  j_parse : text -> option jvalue
}.

(** The object built by [dumpToString] (Configuration.cpp:66-78); [order] is the
    order in which the table is iterated. *)
Definition dump (J : json) (order : config -> config) (c : config) : text :=
  j_print J (map (fun o => (fst o, as_string (snd o))) (order c)).

(** The loop of [createConfigurationFromString] (Configuration.cpp:27-41). *)
Fixpoint load_fields (fs : list (text * jvalue)) (c : config) : option config :=
  match fs with
  | [] => Some c
  | (n, JString t) :: r => load_fields r (set_option c n t)
  | _ :: _ => None
  end.

(** [createConfigurationFromString] (Configuration.cpp:9-43); [None] is the null
    pointer. *)
Definition load (J : json) (t : text) : option config :=
  match j_parse J t with
  | Some (JObject fs) => load_fields fs []
  | _ => None
  end.
