(** What the printed form of a feature model says. *)
From Coq Require Import List ZArith NArith Arith Bool Ascii String.
From Verif Require Import Text SourceRangeModel FeatureTreeModel FeatureTreeSpec GraphvizSpec.
Import ListNotations.
Local Open Scope string_scope.
Local Open Scope list_scope.

(** ** Entries *)
Record entry := Entry {
  e_name : text;
  e_optional : bool;
  e_locations : list text;
  e_parent : option text;
  e_children : list text;
  e_values : option values
}.
(** The entry of a feature [u] in the tree [t]: the parent is the nearest feature above, the
    children are the features directly below. *)
Record states (t u : tree) (e : entry) : Prop := States {
  st_feature : exists f, rdata u = NFeature f /\ e_name e = f_name f /\ e_optional e = f_optional f /\ e_locations e = map range_text (f_locations f) /\
    e_values e = match f_kind f with FNumeric v _ => Some v | _ => None end;
  st_root : rid u = rid t -> e_parent e = None;
  st_parent : forall p, rid u <> rid t -> (e_parent e = Some p <-> exists v g, subtree v t /\ rdata v = NFeature g /\ In u (near (kids v)) /\ p = f_name g);
  st_children : e_children e = flat_map (fun k => match rdata k with NFeature g => [f_name g] | NRelationship _ => [] end) (kids u)
}.
(** An entry for each feature. *)
Definition lists (t : tree) (es : list entry) : Prop :=
  exists us, NoDup (map rid us) /\ (forall u, In u us <-> subtree u t /\ is_feature (rdata u) = true) /\ Forall2 (states t) us es.

(** ** Text *)
Definition enumerated (ts : list text) : text := flat_map (fun t => t ++ T ",") ts.
Definition entry_lines (e : entry) : list text :=
  [T "{"; T "  name: " ++ in_quotes (e_name e) ++ T ","; T "  optional: " ++ (if e_optional e then T "true" else T "false") ++ T ","] ++
  match e_locations e with [] => [] | ls => [T "  locations: " ++ flat_map (fun l => T "[" ++ l ++ T "]") ls ++ T ","] end ++
  match e_parent e with None => [] | Some p => [T "  parent: " ++ p ++ T ","] end ++
  [T "  children: [" ++ enumerated (e_children e) ++ match e_values e with None => T "]" | Some _ => T "]," end] ++
  match e_values e with
  | None => []
  | Some (VRange lo hi) => [T "  minValue: " ++ print_Z lo ++ T ","; T "  maxValue: " ++ print_Z hi]
  | Some (VList vs) => [T "  values: [" ++ enumerated (map print_Z vs) ++ T "]"]
  end ++ [T "}"].
Definition on_lines (ls : list text) : text := flat_map (fun l => l ++ [newline]) ls.
Definition dumped (es : list entry) : text := on_lines (flat_map entry_lines es ++ [[]]).

(** Names without line breaks and commas, locations without line breaks and closing brackets. *)
Definition printable (t : tree) : Prop := forall u f, subtree u t -> rdata u = NFeature f ->
  ~ In newline (f_name f) /\ ~ In ","%char (f_name f) /\ forall r, In r (f_locations f) -> ~ In newline (range_text r) /\ ~ In "]"%char (range_text r).
(** No feature is in a group. *)
Definition ungrouped (t : tree) : Prop := forall u, subtree u t -> is_feature (rdata u) = true.
