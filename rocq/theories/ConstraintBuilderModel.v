(** The fluent constraint builder.
    Models include/vara/Feature/ConstraintBuilder.h. *)
From Coq Require Import List String ZArith Arith Bool.
From Verif Require Import ConstraintModel ConstraintSpec.
Import ListNotations.

(** A builder node (ConstraintBuilder.h:30-86).  Operands are named by the slots
    ([std::unique_ptr] members) that own them; a feature leaf whose value has
    been moved out by [build] (line 46) holds [None].
    Simplification: the [int] argument of [constant] is an unbounded integer. *)
Inductive bnode :=
| BNum (n : Z)
| BName (s : option string)
| BUn (o : unop) (operand : nat)
| BBin (o : binop) (left right : nat).

(** The slots; [None] is a null pointer.  Slot 0 is the member [Root] (line 357). *)
Definition slots := nat -> option bnode.
Definition set_slot (m : slots) (k : nat) (v : option bnode) : slots :=
  fun j => if Nat.eqb j k then v else m j.

(** The builder (lines 357-359): the slots with the number of slots in use, the
    pointer [Head] ([None] after misuse) and the stack [Frames]. *)
Record bstate := BState {
  b_slots : slots;
  b_next : nat;
  b_head : option nat;
  b_frames : list (nat * nat)
}.

(** The constructor (line 15). *)
Definition new_builder : bstate := BState (fun _ => None) 1 (Some 0) [].

(** Outcome of a call: undefined behaviour where an assertion on a pointer would
    fail (lines 115, 154, 194). *)
Inductive bout := BOk (st : bstate) | BUb.

Definition filled (m : slots) (k : nat) : bool :=
  match m k with Some _ => true | None => false end.

(** [Head = nullptr] on a syntax error. *)
Definition misuse (st : bstate) : bstate :=
  BState (b_slots st) (b_next st) None (b_frames st).

(** Minimal and maximal precedence (lines 24-25). *)
Definition min_prec := 0.
Definition max_prec := 9.

(** [while (!Frames.empty() && top <= Precedence) { Head = ...; pop }] (lines
    110-114). *)
Fixpoint pop_upto (p : nat) (h : nat) (fs : list (nat * nat)) : nat * list (nat * nat) :=
  match fs with
  | (q, k) :: r => if q <=? p then pop_upto p k r else (h, fs)
  | [] => (h, [])
  end.

(** [while (!Frames.empty() && top < MaxPrecedence) pop] (lines 127-130, 145-148,
    183-186). *)
Fixpoint pop_open (fs : list (nat * nat)) : list (nat * nat) :=
  match fs with
  | (q, k) :: r => if q <? max_prec then pop_open r else fs
  | [] => []
  end.

(** Precedences of the calls (lines 250-354). *)
Definition call_prec (o : binop) : nat :=
  match o with
  | BOr => 6 | BXor => 6 | BAnd => 5 | BImplies => 7 | BExcludes => 7
  | BEquivalence => 8 | BEqual => 4 | BNotEqual => 4 | BLess => 3 | BGreater => 3
  | BLessEqual => 3 | BGreaterEqual => 3 | BAdd => 2 | BSub => 2 | BMul => 1
  | BDiv => 1
  end.

(** [constant] and [feature] (lines 205-215, 224-235): fill an empty slot with a
    leaf. *)
Definition put_leaf (n : bnode) (st : bstate) : bout :=
  match b_head st with
  | Some h =>
      if filled (b_slots st) h then BOk (misuse st)
      else BOk (BState (set_slot (b_slots st) h (Some n)) (b_next st) (Some h)
                  ((min_prec, h) :: b_frames st))
  | None => BOk (misuse st)
  end.

(** [unary] (lines 88-99). *)
Definition put_unary (o : unop) (st : bstate) : bout :=
  match b_head st with
  | Some h =>
      if filled (b_slots st) h then BOk (misuse st)
      else let j := b_next st in
           BOk (BState (set_slot (set_slot (b_slots st) h (Some (BUn o j))) j None) (S j) (Some j)
                  ((min_prec, h) :: b_frames st))
  | None => BOk (misuse st)
  end.

(** [binary] (lines 101-120): the content of the slot moves into the left operand
    of the new node. *)
Definition put_binary (o : binop) (st : bstate) : bout :=
  match b_head st with
  | Some h =>
      if negb (filled (b_slots st) h) then BOk (misuse st)
      else let (h', fs) := pop_upto (call_prec o) h (b_frames st) in
           if filled (b_slots st) h'
           then let l := b_next st in
                let r := S l in
                BOk (BState (set_slot (set_slot (set_slot (b_slots st) l (b_slots st h'))
                                         r None) h' (Some (BBin o l r)))
                       (S r) (Some r) ((call_prec o, h') :: fs))
           else BUb
  | None => BOk (misuse st)
  end.

(** [openPar] (lines 171-179). *)
Definition open_par (st : bstate) : bout :=
  match b_head st with
  | Some h =>
      if filled (b_slots st) h then BOk (misuse st)
      else BOk (BState (b_slots st) (b_next st) (Some h) ((max_prec, h) :: b_frames st))
  | None => BOk (misuse st)
  end.

(** [closePar] (lines 182-196). *)
Definition close_par (st : bstate) : bout :=
  let fs := pop_open (b_frames st) in
  let st' := BState (b_slots st) (b_next st) (b_head st) fs in
  match b_head st, fs with
  | Some h, (_, k) :: r =>
      if negb (filled (b_slots st) h) then BOk (misuse st')
      else if filled (b_slots st) k
           then BOk (BState (b_slots st) (b_next st) (Some k) r)
           else BUb
  | _, _ => BOk (misuse st')
  end.

(** [operator()] (lines 144-157). *)
Definition par_all (st : bstate) : bout :=
  let fs := pop_open (b_frames st) in
  let st' := BState (b_slots st) (b_next st) (b_head st) fs in
  match b_head st, fs with
  | Some h, [] =>
      if negb (filled (b_slots st) h) then BOk (misuse st')
      else if filled (b_slots st) 0
           then BOk (BState (b_slots st) (b_next st) (Some 0) [])
           else BUb
  | _, _ => BOk (misuse st')
  end.

(** A call on the builder; the chain methods (lines 205-354) are named by the
    symbols they stand for. *)
Inductive bcall := KSym (s : sym) | KPar.

Definition call (k : bcall) (st : bstate) : bout :=
  match k with
  | KSym (SNum n) => put_leaf (BNum n) st
  | KSym (SName s) => put_leaf (BName (Some s)) st
  | KSym (SPre o) => put_unary o st
  | KSym (SInf o) => put_binary o st
  | KSym SOpen => open_par st
  | KSym SClose => close_par st
  | KPar => par_all st
  end.

Fixpoint calls (ks : list bcall) (st : bstate) : bout :=
  match ks with
  | [] => BOk st
  | k :: r => match call k st with BOk st' => calls r st' | BUb => BUb end
  end.

(** The virtual [build] of the nodes (lines 45-47, 61-63, 78-81): builds the tree
    under a slot and moves the features out of the leaves.  [None] is the call on
    a null pointer (or exhausted fuel: slots below one another in a cycle). *)
Fixpoint extract (fuel : nat) (m : slots) (k : nat) : option (cexpr (option string) * slots) :=
  match fuel with
  | 0 => None
  | S f =>
      match m k with
      | None => None
      | Some (BNum n) => Some (CInt n, m)
      | Some (BName s) => Some (CFeat s, set_slot m k (Some (BName None)))
      | Some (BUn o j) =>
          match extract f m j with
          | Some (c, m') => Some (CUn o c, m')
          | None => None
          end
      | Some (BBin o l r) =>
          match extract f m l with
          | Some (cl, m1) =>
              match extract f m1 r with
              | Some (cr, m2) => Some (CBin o cl cr, m2)
              | None => None
              end
          | None => None
          end
      end
  end.

(** What [build] returns: a constraint, null, or undefined behaviour. *)
Inductive built := Built (c : cexpr (option string)) | BuiltNull | BuiltUb.

(** [ConstraintBuilder::build] (lines 126-136), with the state it leaves. *)
Definition build (st : bstate) : built * bstate :=
  let fs := pop_open (b_frames st) in
  let st' := BState (b_slots st) (b_next st) (b_head st) fs in
  match b_head st, fs with
  | Some h, [] =>
      if filled (b_slots st) h && filled (b_slots st) 0
      then match extract (b_next st) (b_slots st) 0 with
           | Some (c, m) => (Built c, BState m (b_next st) (Some h) [])
           | None => (BuiltUb, st')
           end
      else (BuiltNull, st')
  | _, _ => (BuiltNull, st')
  end.

(** A chain of calls on a new builder followed by [build]. *)
Definition chain (ks : list bcall) : built :=
  match calls ks new_builder with
  | BOk st => fst (build st)
  | BUb => BuiltUb
  end.
