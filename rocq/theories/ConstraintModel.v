(** Constraint syntax trees: kinds, printing, cloning.
    Models include/vara/Feature/Constraint.h and lib/Feature/Constraint.cpp. *)
From Coq Require Import List Ascii String ZArith Bool.
From Verif Require Import Text.
Import ListNotations.

(** The sixteen binary node classes of Constraint.h:117-511. *)
Inductive binop :=
| BOr | BXor | BAnd | BEqual | BNotEqual | BImplies | BExcludes | BEquivalence
| BAdd | BSub | BMul | BDiv | BLess | BGreater | BLessEqual | BGreaterEqual.

(** The two unary node classes of Constraint.h:528-562. *)
Inductive unop := UNot | UNeg.

(** Constraint trees (Constraint.h:21-625).  [F] is what a feature leaf holds: a
    name for a shallow feature, a reference for a feature of a model.
    Simplification: the parent pointers are not stored here; they are modelled
    in ConstraintHeapModel.v. *)
Inductive cexpr (F : Type) :=
| CBin (o : binop) (l r : cexpr F)
| CUn (o : unop) (e : cexpr F)
| CInt (n : Z)
| CFeat (f : F).
Arguments CBin {F} o l r.
Arguments CUn {F} o e.
Arguments CInt {F} n.
Arguments CFeat {F} f.

(** Operator text between the operands in [toString] (Constraint.h:130, 152, 174,
    201, 223, 245, 272, 300, 327, 350, 373, 395, 417, 444, 471, 499). *)
Definition binop_text (o : binop) : text :=
  T match o with
    | BOr => " | " | BXor => " ^ " | BAnd => " & " | BEqual => " = "
    | BNotEqual => " != " | BImplies => " => " | BExcludes => " => !"
    | BEquivalence => " <=> " | BAdd => " + " | BSub => " - " | BMul => " * "
    | BDiv => " / " | BLess => " < " | BGreater => " > " | BLessEqual => " <= "
    | BGreaterEqual => " >= "
    end.

(** Operator text in [toHTML] (overridden for And, Implies, Excludes,
    Equivalence, Less, Greater, LessEqual, GreaterEqual: Constraint.h:178-181,
    249-252, 276-279, 304-307, 421-424, 448-451, 475-478, 503-506). *)
Definition binop_html (o : binop) : text :=
  match o with
  | BAnd => T " &amp; "
  | BImplies => T " =&gt; "
  | BExcludes => T " =&gt; !"
  | BEquivalence => T " &lt;=&gt; "
  | BLess => T " &lt; "
  | BGreater => T " &gt; "
  | BLessEqual => T " &lt;= "
  | BGreaterEqual => T " &gt;= "
  | _ => binop_text o
  end.

(** Prefix text of unary nodes (Constraint.h:538, 556). *)
Definition unop_char (o : unop) : ascii :=
  match o with UNot => "!"%char | UNeg => "~"%char end.

(** [Constraint::toString]; [name] is [Feature::getName] of a leaf
    (Constraint.cpp:29-31), integers are printed in decimal (Constraint.h:583). *)
Fixpoint to_string {F} (name : F -> string) (c : cexpr F) : text :=
  match c with
  | CBin o l r => "("%char :: to_string name l ++ binop_text o ++ to_string name r ++ [")"%char]
  | CUn o e => unop_char o :: to_string name e
  | CInt n => print_Z n
  | CFeat f => T (name f)
  end.

(** [Constraint::toHTML]: only the outermost node uses the escaped operator, the
    operands are printed with [toString] (Constraint.h:79 and the overrides
    listed at [binop_html]). *)
Definition to_html {F} (name : F -> string) (c : cexpr F) : text :=
  match c with
  | CBin o l r => "("%char :: to_string name l ++ binop_html o ++ to_string name r ++ [")"%char]
  | _ => to_string name c
  end.
