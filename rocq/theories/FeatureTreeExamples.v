(** Small feature trees used as examples. *)
From Coq Require Import List ZArith Arith Bool Ascii String.
From Verif Require Import Text FeatureTreeModel FeatureTreeSpec.
Import ListNotations.
Local Open Scope string_scope.
Local Open Scope list_scope.

(** A heap that contains exactly the given tree, using addresses below [next]. *)
Definition plant (next : nat) (t : tree) : heap :=
  Heap (fun i => match find (fun e => Nat.eqb (fst e) i) (entries None t) with Some (_, c) => Some c | None => None end) next.

Definition binary (s : string) : ndata := NFeature (new_feature FBinary (T s) false [] []).
Definition rootd (s : string) : ndata := NFeature (root_feature (T s)).

(** root with an alternative group {B, a} (B with child c) and a feature D. *)
Definition tree1 : tree :=
  Node 0 (rootd "root")
    [Node 4 (NRelationship RAlternative)
       [Node 2 (binary "B") [Node 5 (binary "c") []]; Node 1 (binary "a") []];
     Node 3 (binary "D") []].
Definition heap1 : heap := plant 6 tree1.

(** Two siblings whose names differ only in case, the first with a child. *)
Definition tree2 : tree :=
  Node 0 (rootd "root") [Node 1 (binary "X") [Node 3 (binary "c") []]; Node 2 (binary "x") []].
Definition heap2 : heap := plant 4 tree2.

(** Two separate trees: m with child a, and k. *)
Definition heap3 : heap :=
  Heap (fun i => match i with
                 | 0 => Some (Cell (rootd "m") None [1])
                 | 1 => Some (Cell (binary "a") (Some 0) [])
                 | 2 => Some (Cell (rootd "k") None [])
                 | _ => None
                 end) 3.
