(** Examples for results. *)
From Coq Require Import List Bool Arith String.
From Verif Require Import Text SolverModel SolverSpec SolverExamples ResultModel ResultSpec ResultFinal.
Import ListNotations.

(** A pointer (that is null after a move) is passed on by any chain, and so is a number that is
    not copied from a variable. *)
Lemma kept_example : same_result scode (option nat) (inl (Some 3)) (passed_all scode (option nat) None [ByMove; ByCopy; ByConstCopy; ByCopy] (inl (Some 3))) /\
  same_result scode nat (inr Unsat) (passed_all scode nat (Some number_of) [ByMove; ByConstCopy] (inr Unsat)).
Proof. split; apply results_kept; [left|right]; reflexivity. Qed.
Lemma extract_example : res_extract scode (option nat) (fun _ => None) (inl (Some 3)) = Some (Some 3, inl None).
Proof. reflexivity. Qed.

(** The number of configurations of a model that has three, and of one that has none. *)
Lemma copy_wrong : exists check fuel s r r', reached s /\ decides check (s_vars s) (s_asserted s) /\ get_num check fuel s = Some r /\
  r' = passed scode nat (Some number_of) ByCopy r /\ shows scode nat r true (Some 3) None /\ shows scode nat r' true (Some 1) None.
Proof.
  exists (trying tried9), 9, solver9. eexists _, _. split; [exact reached9|]. split; [exact decides9|]. split; [apply enumeration_example|]. split; [reflexivity|].
  split; repeat split.
Qed.
Lemma error_lost : exists check fuel s r r', reached s /\ decides check (s_vars s) (s_asserted s) /\ get_num check fuel s = Some r /\
  r' = passed scode nat (Some number_of) ByCopy r /\ shows scode nat r false None (Some Unsat) /\ shows scode nat r' true (Some 0) None.
Proof.
  exists (trying []), 1, solver10. eexists _, _. split; [exact reached10|]. split; [exact decides10|]. split; [vm_compute; reflexivity|]. split; [reflexivity|].
  split; repeat split.
Qed.
