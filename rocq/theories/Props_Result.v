(** Property C89: results of the library. *)
From Coq Require Import List Bool Arith String.
From Verif Require Import Text SolverModel SolverSpec SolverExamples ResultModel ResultSpec ResultFinal ResultExamples.
Import ListNotations.

(** ** C89 *)
(** However a result is moved and copied, it keeps its value or its error, if its value cannot
    be made of a bool or no copy is taken of a variable that is not constant. *)
Theorem C89_results_are_passed_on :
  forall (E V : Type) (o : option (bool -> V)) ps r, o = None \/ copies ps = 0 -> same_result E V r (passed_all E V o ps r).
Proof. exact results_kept. Qed.
Print Assumptions C89_results_are_passed_on.
Example C89_example : same_result scode (option nat) (inl (Some 3)) (passed_all scode (option nat) None [ByMove; ByCopy; ByConstCopy; ByCopy] (inl (Some 3))) /\
  same_result scode nat (inr Unsat) (passed_all scode nat (Some number_of) [ByMove; ByConstCopy] (inr Unsat)).
Proof. exact kept_example. Qed.

(** Otherwise all that is left is whether there was a value, and after two copies not even that. *)
Theorem C89_copies_of_numbers :
  forall (E V : Type) (f : bool -> V) ps r, copies ps <> 0 ->
  shows E V (passed_all E V (Some f) ps r) true (Some (f (if Nat.eqb (copies ps) 1 then res_test E V r else true))) None.
Proof. exact results_lost. Qed.
Print Assumptions C89_copies_of_numbers.

(** The only result that survives such a copy is the value that stands for true. *)
Theorem C89_copies_that_agree :
  forall (E V : Type) (f : bool -> V) r, same_result E V r (passed E V (Some f) ByCopy r) <-> shows E V r true (Some (f true)) None.
Proof. exact copies_agree. Qed.
Print Assumptions C89_copies_that_agree.

(** So a copy of the number of configurations is right only if there is exactly one, and *)
Theorem C89_copied_numbers_of_configurations :
  forall check s, reached s -> decides check (s_vars s) (s_asserted s) ->
  exists N, forall fuel, N <= fuel -> exists r, get_num check fuel s = Some r /\
    forall all, lists_all_solutions (s_vars s) (s_asserted s) all ->
      shows scode nat (passed scode nat (Some number_of) ByCopy r) true (Some (if Nat.eqb (List.length all) 0 then 0 else 1)) None /\
      (same_result scode nat r (passed scode nat (Some number_of) ByCopy r) <-> List.length all = 1).
Proof. exact counts_copied. Qed.
Print Assumptions C89_copied_numbers_of_configurations.

(** a copy of the answer to whether there are any always says so. *)
Theorem C89_copied_validity :
  forall check s, reached s -> decides check (s_vars s) (s_asserted s) ->
  exists b, shows scode bool (has_valid check s) true (Some b) None /\ (b = true <-> exists a, satisfies a (s_asserted s)) /\
    shows scode bool (passed scode bool (Some (fun b => b)) ByCopy (has_valid check s)) true (Some true) None.
Proof. exact validity_copied. Qed.
Print Assumptions C89_copied_validity.

(** A value that was taken out is gone, but the result still tests true. *)
Theorem C89_values_are_taken_once :
  forall (E V : Type) left r, res_test E V r = true ->
  exists v r', res_extract E V left r = Some (v, r') /\ res_value E V r = Some v /\ shows E V r' true (Some (left v)) None.
Proof. exact extracted_once. Qed.
Print Assumptions C89_values_are_taken_once.
Example C89_taken_example : res_extract scode (option nat) (fun _ => None) (inl (Some 3)) = Some (Some 3, inl None).
Proof. exact extract_example. Qed.

(** Copies are not always the same as the original. *)
Theorem C89_copies_are_equal_refuted : exists check fuel s r r', reached s /\ decides check (s_vars s) (s_asserted s) /\ get_num check fuel s = Some r /\
  r' = passed scode nat (Some number_of) ByCopy r /\ shows scode nat r true (Some 3) None /\ shows scode nat r' true (Some 1) None.
Proof. exact copy_wrong. Qed.
Print Assumptions C89_copies_are_equal_refuted.
(** Nor do they keep errors. *)
Theorem C89_copies_keep_errors_refuted : exists check fuel s r r', reached s /\ decides check (s_vars s) (s_asserted s) /\ get_num check fuel s = Some r /\
  r' = passed scode nat (Some number_of) ByCopy r /\ shows scode nat r false None (Some Unsat) /\ shows scode nat r' true (Some 0) None.
Proof. exact error_lost. Qed.
Print Assumptions C89_copies_keep_errors_refuted.
