(** The character classes, listed. *)
From Coq Require Import List Ascii String Arith Bool.
From Verif Require Import Text.
Import ListNotations.

Definition small_letters : text := T "abcdefghijklmnopqrstuvwxyz".
Definition capital_letters : text := T "ABCDEFGHIJKLMNOPQRSTUVWXYZ".
Definition decimal_digits : text := T "0123456789".

Lemma class_listed (p : ascii -> bool) l : forallb (fun c => Bool.eqb (p c) (existsb (Ascii.eqb c) l)) (map ascii_of_nat (seq 0 256)) = true ->
  forall c, p c = true <-> In c l.
Proof.
  intros F c. rewrite forallb_forall in F. assert (Bool.eqb (p c) (existsb (Ascii.eqb c) l) = true) as E.
  { apply F. apply in_map_iff. exists (nat_of_ascii c). split; [apply ascii_nat_embedding|]. apply in_seq. split; [apply Nat.le_0_l|]. apply nat_ascii_bounded. }
  apply eqb_prop in E. rewrite E, existsb_exists. split.
  - intros (x & I & X). apply Ascii.eqb_eq in X. subst. exact I.
  - intros I. exists c. split; [exact I|apply Ascii.eqb_refl].
Qed.
Lemma characters_listed c :
  (is_lower c = true <-> In c small_letters) /\ (is_upper c = true <-> In c capital_letters) /\ (is_digit c = true <-> In c decimal_digits) /\
  (is_alpha c = true <-> In c (small_letters ++ capital_letters)) /\ (is_alnum c = true <-> In c (small_letters ++ capital_letters ++ decimal_digits)).
Proof. repeat match goal with |- _ /\ _ => split end; apply class_listed; vm_compute; reflexivity. Qed.
Lemma lowered_listed : map to_lower capital_letters = small_letters /\ forall c, ~ In c capital_letters -> to_lower c = c.
Proof.
  split; [reflexivity|]. intros c N. unfold to_lower. destruct (is_upper c) eqn:E; [|reflexivity]. exfalso. apply N. apply (characters_listed c). exact E.
Qed.
