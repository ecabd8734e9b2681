(** The solver: encoding of feature models into formulas and enumeration of
    configurations.
    Models include/vara/Solver/Z3Solver.h, lib/Solver/Z3Solver.cpp,
    lib/Solver/SolverFactory.cpp, include/vara/Solver/ConfigurationFactory.h and the
    conversion of a Result to bool (include/vara/Utils/Result.h).

    As in FeatureTreeModel.v, [None] stands for undefined behaviour, a failed
    assertion, an exception of Z3 (ill-sorted terms) or non-termination. *)
From Coq Require Import List ZArith Arith Bool Ascii String.
From Verif Require Import Text ConstraintModel SourceRangeModel StepFunctionModel ConfigurationModel FeatureTreeModel FeatureTransactionModel.
Import ListNotations.

(** ** Formulas *)
(** The terms of Z3 the code builds, by sort.  A constant is given by its sort and its
    name: Z3 keeps constants of the same name and different sorts apart.
    Simplification: names do not contain the NUL character, at which [c_str()] would
    cut them. *)
Inductive sort := SBool | SInt.
Inductive iterm :=
| IVar (n : text)
| INum (z : Z)
| IAdd (a b : iterm) | ISub (a b : iterm) | IMul (a b : iterm) | IDiv (a b : iterm)
| INegate (a : iterm)
| IOfBool (n : text).           (* Z3_mk_ite(n, 1, 0) *)
Inductive comparison_op := CmpEq | CmpNe | CmpLt | CmpLe | CmpGt | CmpGe.
Inductive bterm :=
| TVar (n : text)
| TConst (b : bool)
| TNot (a : bterm)
| TAnd (a b : bterm) | TOr (a b : bterm) | TImplies (a b : bterm)
| TIff (a b : bterm) | TDiffer (a b : bterm)      (* == and != on booleans *)
| TCompare (o : comparison_op) (a b : iterm)
| TAtMost (k : nat) (ns : list text)
| TAny (ns : list text).
(** A [z3::expr]. *)
Inductive zexpr := EBool (b : bterm) | EInt (i : iterm).

(** A model of Z3: the values of the constants, and of divisions by zero, which Z3
    leaves to the model. *)
Record assignment := Assignment { a_bool : text -> bool; a_int : text -> Z; a_div0 : Z -> Z }.

(** Integer division of Z3: the remainder is not negative. *)
Definition z3_div (a : assignment) (x y : Z) : Z :=
  if (y =? 0)%Z then a_div0 a x
  else if (0 <? y)%Z then (x / y)%Z else (- (x / (- y)))%Z.

Fixpoint ieval (a : assignment) (t : iterm) : Z :=
  match t with
  | IVar n => a_int a n
  | INum z => z
  | IAdd x y => (ieval a x + ieval a y)%Z
  | ISub x y => (ieval a x - ieval a y)%Z
  | IMul x y => (ieval a x * ieval a y)%Z
  | IDiv x y => z3_div a (ieval a x) (ieval a y)
  | INegate x => (- ieval a x)%Z
  | IOfBool n => if a_bool a n then 1%Z else 0%Z
  end.
Definition compare_z (o : comparison_op) (x y : Z) : bool :=
  match o with
  | CmpEq => x =? y | CmpNe => negb (x =? y) | CmpLt => x <? y | CmpLe => x <=? y | CmpGt => y <? x | CmpGe => y <=? x
  end%Z.
Fixpoint beval (a : assignment) (t : bterm) : bool :=
  match t with
  | TVar n => a_bool a n
  | TConst b => b
  | TNot x => negb (beval a x)
  | TAnd x y => beval a x && beval a y
  | TOr x y => beval a x || beval a y
  | TImplies x y => implb (beval a x) (beval a y)
  | TIff x y => Bool.eqb (beval a x) (beval a y)
  | TDiffer x y => xorb (beval a x) (beval a y)
  | TCompare o x y => compare_z o (ieval a x) (ieval a y)
  | TAtMost k ns => List.length (filter (a_bool a) ns) <=? k
  | TAny ns => existsb (a_bool a) ns
  end.

(** ** The solver *)
(** [SolverErrorCode] (include/vara/Solver/Error.h:10-18), as far as used. *)
Inductive scode := NotSupported | Unsat | AlreadyPresent | ParentNotPresent | IllegalState.

(** [Z3Solver] (Z3Solver.h:81-94): the options with their sorts, the formulas asserted
    so far and the current model.  Simplification: the options are kept in order of
    insertion; the order in which the string map is iterated only changes the order of
    disjuncts and of assignments to different options.  [push] has no effect as
    nothing is popped. *)
Record solver := Solver { s_vars : list (text * sort); s_asserted : list bterm; s_model : option assignment }.
Definition new_solver : solver := Solver [] [] None.

(** The solver after a call and the error, if any. *)
Definition sresult := option (solver * option scode).
Definition done (s : solver) : sresult := Some (s, None).
Definition refused (e : scode) (s : solver) : sresult := Some (s, Some e).

Fixpoint sort_of (vs : list (text * sort)) (n : text) : option sort :=
  match vs with
  | [] => None
  | (m, t) :: r => if text_eqb m n then Some t else sort_of r n
  end.
Definition known (s : solver) (n : text) : bool := match sort_of (s_vars s) n with Some _ => true | None => false end.
Definition assert_term (s : solver) (t : bterm) : solver := Solver (s_vars s) (s_asserted s ++ [t]) (s_model s).
Definition add_option (s : solver) (n : text) (t : sort) : solver := Solver (s_vars s ++ [(n, t)]) (s_asserted s) (s_model s).

(** [addFeature(FeatureName)] (Z3Solver.cpp:87-96). *)
Definition add_name (n : text) (s : solver) : sresult :=
  if known s n then refused AlreadyPresent s else done (add_option s n SBool).

(** [addFeature(FeatureName, Values)] (Z3Solver.cpp:98-117). *)
Definition one_of (n : text) (vs : list Z) : bterm :=
  fold_left (fun t v => TOr t (TCompare CmpEq (IVar n) (INum v))) vs (TConst false).
Definition add_values (n : text) (vs : list Z) (s : solver) : sresult :=
  if known s n then refused AlreadyPresent s else done (assert_term (add_option s n SInt) (one_of n vs)).

(** The variable of an option of boolean sort, as needed by [z3::implies]. *)
Definition bool_var (s : solver) (n : text) : option bterm :=
  let* t := sort_of (s_vars s) n in match t with SBool => Some (TVar n) | SInt => None end.

(** [addFeature] and [setBinaryFeatureConstraints] (Z3Solver.cpp:9-85, 194-209).  [fuel]
    bounds the loop that expands a range. *)
Definition add_feature (fuel : nat) (h : heap) (i : nid) (in_group : bool) (s : solver) : sresult :=
  let* f := feature_at h i in
  let* q := parent_feature h i in
  let* present := match q with
                  | None => Some true
                  | Some p => let* n := name_at h p in Some (known s n)
                  end in
  if negb present then refused ParentNotPresent s
  else if known s (f_name f) then refused AlreadyPresent s
  else
    match f_kind f with
    | FNumeric (VList vs) _ => add_values (f_name f) vs s
    | FNumeric (VRange lo hi) step =>
        match expand fuel step lo hi with
        | Expanded vs => add_values (f_name f) vs s
        | _ => None
        end
    | FBinary =>
        let s1 := add_option s (f_name f) SBool in
        let* p := q in
        let* n := name_at h p in
        let* v := bool_var s1 n in
        let s2 := assert_term s1 (TImplies (TVar (f_name f)) v) in
        done (if negb in_group && negb (f_optional f) then assert_term s2 (TImplies v (TVar (f_name f))) else s2)
    | FRoot => done (assert_term (add_option s (f_name f) SBool) (TVar (f_name f)))
    | FUnknown => refused NotSupported s
    end.

(** [addRelationship] (Z3Solver.cpp:124-144).  Parent and children must be features;
    [z3::atmost] asserts that there is at least one operand. *)
Definition add_relationship (h : heap) (r : nid) (s : solver) : sresult :=
  let* c := h_cells h r in
  let* p := n_parent c in
  let* n := name_at h p in
  let* ns := map_option (name_at h) (n_edges c) in
  match n_data c with
  | NFeature _ => None
  | NRelationship RAlternative =>
      match ns with
      | [] => None
      | _ => done (assert_term s (TImplies (TVar n) (TAnd (TAtMost 1 ns) (TAny ns))))
      end
  | NRelationship ROr => done (assert_term s (TImplies (TVar n) (TAny ns)))
  end.

(** The operators of [z3::expr] on operands of the right sorts. *)
Definition on_bools (f : bterm -> bterm -> bterm) (a b : zexpr) : option zexpr :=
  match a, b with EBool x, EBool y => Some (EBool (f x y)) | _, _ => None end.
Definition on_ints (f : iterm -> iterm -> iterm) (a b : zexpr) : option zexpr :=
  match a, b with EInt x, EInt y => Some (EInt (f x y)) | _, _ => None end.
Definition comparing (o : comparison_op) (a b : zexpr) : option zexpr :=
  match a, b with EInt x, EInt y => Some (EBool (TCompare o x y)) | _, _ => None end.

(** [visit(BinaryConstraint)] (Z3Solver.cpp:276-332).  Simplification: comparing a
    boolean with an integer is treated as an error of Z3. *)
Definition encode_binary (o : binop) (l r : zexpr) : option zexpr :=
  match o with
  | BAdd => on_ints IAdd l r
  | BAnd => on_bools TAnd l r
  | BDiv => on_ints IDiv l r
  | BEqual => match l with EBool _ => on_bools TIff l r | EInt _ => comparing CmpEq l r end
  | BEquivalence => on_bools (fun x y => TAnd (TImplies x y) (TImplies y x)) l r
  | BExcludes => on_bools (fun x y => TImplies x (TNot y)) l r
  | BGreater => comparing CmpGt l r
  | BGreaterEqual => comparing CmpGe l r
  | BImplies => on_bools TImplies l r
  | BLess => comparing CmpLt l r
  | BLessEqual => comparing CmpLe l r
  | BMul => on_ints IMul l r
  | BNotEqual => match l with EBool _ => on_bools TDiffer l r | EInt _ => comparing CmpNe l r end
  | BOr => on_bools TOr l r
  | BSub => on_ints ISub l r
  | BXor => on_bools (fun x y => TAnd (TImplies x (TNot y)) (TImplies y (TNot x))) l r
  end.

(** Whether a mention is of a numeric feature, and its name. *)
Definition mention (h : heap) (r : cref) : option (bool * text) :=
  match r with
  | Own s => Some (false, s)
  | Ref i => let* f := feature_at h i in
             Some (match f_kind f with FNumeric _ _ => true | _ => false end, f_name f)
  end.

(** [Z3SolverConstraintVisitor] (Z3Solver.cpp:268-376): the expression and the
    [VariableConstraint] accumulated in [vc]. *)
Fixpoint encode (h : heap) (mixed : bool) (c : cexpr cref) (vc : bterm) : option (zexpr * bterm) :=
  match c with
  | CBin o l r =>
      let* (x, v1) := encode h mixed l vc in
      let* (y, v2) := encode h mixed r v1 in
      let* z := encode_binary o x y in
      Some (z, v2)
  | CUn o e =>
      let* (x, v1) := encode h mixed e vc in
      match o, x with
      | UNeg, EInt i => Some (EInt (INegate i), v1)
      | UNot, EBool b => Some (EBool (TNot b), v1)
      | _, _ => None
      end
  | CInt n => Some (EInt (INum n), vc)
  | CFeat r =>
      let* (numeric, n) := mention h r in
      if (numeric : bool) then Some (EInt (IVar n), vc)
      else if mixed then Some (EInt (IOfBool n), TOr vc (TNot (TVar n)))
      else Some (EBool (TVar n), vc)
  end.

(** [addConstraint] of the visitor (Z3Solver.cpp:251-266), [addConstraint] and
    [addMixedConstraint] of the solver (146-169). *)
Definition add_encoded (h : heap) (mixed negate require_all : bool) (c : cexpr cref) (s : solver) : sresult :=
  let* (x, vc) := encode h mixed c (TConst false) in
  match x with
  | EInt _ => None
  | EBool b =>
      let b' := if negate then TNot b else b in
      done (assert_term s (if mixed && require_all then TOr vc b' else b'))
  end.
Definition add_constraint (h : heap) (c : cexpr cref) (s : solver) : sresult := add_encoded h false false true c s.
Definition add_mixed (h : heap) (c : cexpr cref) (k : cexprkind) (r : creq) (s : solver) : sresult :=
  add_encoded h true (match k with ExprNeg => true | ExprPos => false end) (match r with ReqAll => true | ReqNone => false end) c s.

(** Calls one after the other, their errors being ignored. *)
Definition then_call {A} (f : A -> solver -> sresult) (o : option solver) (x : A) : option solver :=
  let* s := o in let* (s1, _) := f x s in Some s1.
Definition call_all {A} (f : A -> solver -> sresult) (l : list A) (s : solver) : option solver :=
  fold_left (then_call f) l (Some s).

(** [applyModelOnSolver] (SolverFactory.cpp:11-45). *)
Definition group_members (h : heap) (m : fmodel) : option (list text) :=
  fold_left (fun o r =>
    let* v := o in
    let* c := h_cells h r in
    let* ns := map_option (name_at h) (n_edges c) in
    Some (rev ns ++ v)) (m_relationships m) (Some []).
Definition apply_model (ord : list nid -> list nid) (fuel : nat) (h : heap) (m : fmodel) (s : solver) : option solver :=
  let* v := group_members h m in
  let* fs := iterate ord (S (h_next h)) h (m_root m) in
  let* s1 := call_all (fun i s => let* n := name_at h i in add_feature fuel h i (existsb (text_eqb n) v) s) fs s in
  let* s2 := call_all (fun c => add_constraint h (c_expr c)) (m_boolean m) s1 in
  let* s3 := call_all (fun c => add_constraint h (c_expr c)) (m_nonboolean m) s2 in
  let* s4 := call_all (fun x => add_mixed h (c_expr (x_con x)) (x_kind x) (x_req x)) (m_mixed m) s3 in
  call_all (add_relationship h) (m_relationships m) s4.
(** [initializeSolver] (SolverFactory.h:24-32). *)
Definition load (ord : list nid -> list nid) (fuel : nat) (h : heap) (m : fmodel) : option solver :=
  apply_model ord fuel h m new_solver.

(** ** Enumeration *)
(** The text of a value: [Value.to_string()] (Z3Solver.cpp:244-245).  Z3 prints a negative
    number as an application of minus. *)
Definition value_text (a : assignment) (n : text) (t : sort) : text :=
  match t with
  | SBool => if a_bool a n then T "true" else T "false"
  | SInt => if (a_int a n <? 0)%Z then T "(- " ++ print_Z (- a_int a n) ++ T ")" else print_Z (a_int a n)
  end.
(** The configuration built by [getCurrentConfiguration] (Z3Solver.cpp:239-247). *)
Definition configuration (vs : list (text * sort)) (a : assignment) : config :=
  set_options [] (map (fun v => (fst v, value_text a (fst v) (snd v))) vs).

(** [excludeCurrentConfiguration] (Z3Solver.cpp:211-231). *)
Definition exclusion (vs : list (text * sort)) (a : assignment) : bterm :=
  fold_left (fun t v => TOr t
    match snd v with
    | SBool => if a_bool a (fst v) then TNot (TVar (fst v)) else TVar (fst v)
    | SInt => TCompare CmpNe (IVar (fst v)) (INum (a_int a (fst v)))
    end) vs (TConst false).

Section Oracle.
(** [Solver->check()] and [get_model()]: a model of the asserted formulas, or [None] if
    they are unsatisfiable.  Simplification: Z3 always decides. *)
Variable check : list bterm -> option assignment.

(** A [Result]: a value or an error. *)
Definition outcome (A : Type) := (A + scode)%type.

(** [getNextConfiguration] (Z3Solver.cpp:184-192). *)
Definition get_next (s : solver) : solver * outcome config :=
  match check (s_asserted s) with
  | None => (s, inr Unsat)
  | Some a => (Solver (s_vars s) (s_asserted s ++ [exclusion (s_vars s) a]) (Some a), inl (configuration (s_vars s) a))
  end.
(** [getCurrentConfiguration] (Z3Solver.cpp:233-248). *)
Definition get_current (s : solver) : solver * outcome config :=
  match s_model s with
  | None => get_next s
  | Some a => (s, inl (configuration (s_vars s) a))
  end.
(** [hasValidConfigurations] (Z3Solver.cpp:171-182). *)
Definition has_valid (s : solver) : outcome bool :=
  match s_model s with
  | Some _ => inr IllegalState
  | None => inl (match check (s_asserted s) with Some _ => true | None => false end)
  end.

(** The iterator (ConfigurationFactory.h:28-43) in the loop of [getAllConfigs]
    (ConfigurationFactory.h:93-100); [None] if the loop runs longer than [fuel]. *)
Fixpoint all_loop (fuel : nat) (s : solver) (v : list config) : option (outcome (list config)) :=
  match fuel with
  | 0 => None
  | S k =>
      let (s1, r) := get_current s in
      match r with
      | inr e => Some (inr e)
      | inl c =>
          let (s2, r2) := get_next s1 in
          match r2 with
          | inr _ => Some (inl (v ++ [c]))
          | inl _ => all_loop k s2 (v ++ [c])
          end
      end
  end.
Definition get_all (fuel : nat) (s : solver) : option (outcome (list config)) := all_loop fuel s [].

(** [getNumConfigs] (ConfigurationFactory.h:113-121). *)
Definition get_num (fuel : nat) (s : solver) : option (outcome nat) :=
  let* r := get_all fuel s in
  Some (match r with inl l => inl (List.length l) | inr e => inr e end).

(** [getNConfigs] (ConfigurationFactory.h:133-151). *)
Fixpoint n_loop (fuel : nat) (n : nat) (s : solver) (v : list config) : option (list config) :=
  match fuel with
  | 0 => None
  | S k =>
      let (s1, r) := get_current s in
      let v' := match r with inl c => c :: v | inr _ => v end in
      if List.length v' =? n then Some v'
      else
        let (s2, r2) := get_next s1 in
        match r2 with inr _ => Some v' | inl _ => n_loop k n s2 v' end
  end.
Definition get_n (fuel : nat) (n : nat) (s : solver) : option (list config) :=
  if n =? 0 then Some [] else n_loop fuel n s [].

(** [operator bool] of a Result (Result.h:112-115) and [isValid]
    (ConfigurationFactory.h:160-164). *)
Definition result_bool {A} (r : outcome A) : bool := match r with inl _ => true | inr _ => false end.
Definition is_valid (s : solver) : bool := result_bool (has_valid s).
End Oracle.

(** Any sequence of calls on a solver. *)
Inductive scall :=
| CallName (n : text)
| CallValues (n : text) (vs : list Z)
| CallFeature (h : heap) (i : nid) (in_group : bool)
| CallRelationship (h : heap) (r : nid)
| CallConstraint (h : heap) (c : cexpr cref)
| CallMixed (h : heap) (c : cexpr cref) (k : cexprkind) (r : creq).
Definition solver_call (fuel : nat) (c : scall) (s : solver) : sresult :=
  match c with
  | CallName n => add_name n s
  | CallValues n vs => add_values n vs s
  | CallFeature h i g => add_feature fuel h i g s
  | CallRelationship h r => add_relationship h r s
  | CallConstraint h e => add_constraint h e s
  | CallMixed h e k r => add_mixed h e k r s
  end.
