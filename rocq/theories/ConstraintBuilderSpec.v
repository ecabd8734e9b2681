(** What a chain of builder calls means, independent of the builder model. *)
From Coq Require Import List Ascii String ZArith Arith Bool.
From Verif Require Import ConstraintModel ConstraintSpec ConstraintBuilderModel.
Import ListNotations.

(** Renaming of the leaves. *)
Fixpoint map_leaves {F G} (f : F -> G) (c : cexpr F) : cexpr G :=
  match c with
  | CBin o l r => CBin o (map_leaves f l) (map_leaves f r)
  | CUn o e => CUn o (map_leaves f e)
  | CInt n => CInt n
  | CFeat x => CFeat (f x)
  end.

(** The symbols spelled by a chain: every call appends its symbol; the call
    operator brackets the whole chain so far, which has to be an expression. *)
Inductive spelled : list bcall -> list sym -> Prop :=
| sp_nil : spelled [] []
| sp_sym ks w s : spelled ks w -> spelled (ks ++ [KSym s]) (w ++ [s])
| sp_par ks w c : spelled ks w -> spells w c ->
    spelled (ks ++ [KPar]) (SOpen :: w ++ [SClose]).

(** Placement of calls: whether an operand has been completed, and how many
    brackets are open. *)
Inductive placed : bool -> nat -> bcall -> bool -> nat -> Prop :=
| pl_num d n : placed false d (KSym (SNum n)) true d
| pl_name d s : placed false d (KSym (SName s)) true d
| pl_pre d o : placed false d (KSym (SPre o)) false d
| pl_inf d o : placed true d (KSym (SInf o)) false d
| pl_open d : placed false d (KSym SOpen) false (S d)
| pl_close d : placed true (S d) (KSym SClose) true d
| pl_par : placed true 0 KPar true 0.

(** [well_placed ks b d]: every call of the chain is at an allowed position. *)
Inductive well_placed : list bcall -> bool -> nat -> Prop :=
| wp_nil : well_placed [] false 0
| wp_call ks b d k b' d' :
    well_placed ks b d -> placed b d k b' d' -> well_placed (ks ++ [k]) b' d'.

(** Lexical units written one after the other, separated by blanks. *)
Fixpoint spaced (ps : list Text.text) : Text.text :=
  match ps with
  | [] => []
  | p :: r => p ++ " "%char :: spaced r
  end.
