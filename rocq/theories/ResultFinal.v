(** Proofs for results. *)
From Coq Require Import List Bool Arith Lia String.
From Verif Require Import Text SolverModel SolverSpec SolverFinal ResultModel ResultSpec.
Import ListNotations.

Section Result.
Variables (E V : Type).
Local Notation "'pass_on' o ps r" := (passed_all E V o ps r) (at level 10, o at level 9, ps at level 9, r at level 9).

Lemma same_refl r : same_result E V r r.
Proof. intros b v e. reflexivity. Qed.
Lemma same_eq r r' : same_result E V r r' -> r = r'.
Proof.
  intros H. destruct r as [v|e].
  - assert (shows E V r' true (Some v) None) as (_ & A & _) by (apply H; repeat split). destruct r'; [injection A as ->; reflexivity|discriminate A].
  - assert (shows E V r' false None (Some e)) as (_ & _ & A) by (apply H; repeat split). destruct r'; [discriminate A|injection A as ->; reflexivity].
Qed.

(** Values that cannot be made of a bool, and results that are only moved. *)
Lemma passed_on o ps : forall r, o = None \/ copies ps = 0 -> pass_on o ps r = r.
Proof.
  induction ps as [|p ps IH]; intros r C; [reflexivity|]. cbn [passed_all fold_left].
  assert (passed E V o p r = r) as -> by (destruct p, o as [f|]; try reflexivity; destruct C as [C|C]; discriminate C).
  apply IH. destruct C as [C|C]; [left; exact C|right]. destruct p; [exact C|exact C|discriminate C].
Qed.
Theorem results_kept o ps r : o = None \/ copies ps = 0 -> same_result E V r (pass_on o ps r).
Proof. intros C. rewrite passed_on by exact C. apply same_refl. Qed.

Lemma copied_again f ps : forall v, v = f true -> pass_on (Some f) ps (inl v) = inl (f true).
Proof. induction ps as [|p ps IH]; intros v ->; [reflexivity|]. cbn [passed_all fold_left]. destruct p; apply IH; reflexivity. Qed.
(** Otherwise a copy has the value that stands for whether there was one. *)
Theorem results_lost f ps : forall r, copies ps <> 0 -> shows E V (pass_on (Some f) ps r) true (Some (f (if Nat.eqb (copies ps) 1 then res_test E V r else true))) None.
Proof.
  induction ps as [|p ps IH]; intros r C; [destruct C; reflexivity|]. destruct p; [apply IH; exact C|apply IH; exact C|].
  change (copies (ByCopy :: ps)) with (S (copies ps)) in *. cbn [passed_all fold_left]. change (fold_left (fun r p => passed E V (Some f) p r) ps) with (fun x => pass_on (Some f) ps x). cbn beta.
  cbn [passed]. destruct (copies ps) as [|k] eqn:K.
  - rewrite (passed_on (Some f) ps) by (right; exact K). repeat split.
  - assert (shows E V (pass_on (Some f) ps (inl (f (res_test E V r)))) true (Some (f (if Nat.eqb (S k) 1 then true else true))) None) as H.
    { apply (IH (inl (f (res_test E V r)))). discriminate. }
    cbn [Nat.eqb] in *. destruct (Nat.eqb k 0); exact H.
Qed.
(** Which results survive a copy. *)
Theorem copies_agree f r : same_result E V r (passed E V (Some f) ByCopy r) <-> shows E V r true (Some (f true)) None.
Proof.
  split.
  - intros H. apply same_eq in H. destruct r as [v|e]; [|discriminate H]. cbn in H. injection H as H. rewrite H at 1. repeat split.
  - intros (_ & A & _). destruct r as [v|e]; [injection A as ->|discriminate A]. apply same_refl.
Qed.

(** Taking the value out leaves a result that still tests true. *)
Theorem extracted_once left r : res_test E V r = true ->
  exists v r', res_extract E V left r = Some (v, r') /\ res_value E V r = Some v /\ shows E V r' true (Some (left v)) None.
Proof. destruct r as [v|e]; [|discriminate]. intros _. exists v, (inl (left v)). repeat split. Qed.
End Result.

(** What becomes of the results of the solver. *)
Definition number_of (b : bool) : nat := if b then 1 else 0.
Theorem counts_copied check s : reached s -> decides check (s_vars s) (s_asserted s) ->
  exists N, forall fuel, N <= fuel -> exists r, get_num check fuel s = Some r /\
    forall all, lists_all_solutions (s_vars s) (s_asserted s) all ->
      shows scode nat (passed scode nat (Some number_of) ByCopy r) true (Some (if Nat.eqb (List.length all) 0 then 0 else 1)) None /\
      (same_result scode nat r (passed scode nat (Some number_of) ByCopy r) <-> List.length all = 1).
Proof.
  intros Re D. destruct (count_all check s Re D) as (N & H). exists N. intros fuel L. destruct (H fuel L) as ((all & A) & G).
  pose proof (G all A) as Ga. eexists. split; [exact Ga|]. intros all' A'. pose proof (G all' A') as G'. rewrite Ga in G'. injection G' as G'. rewrite G'.
  destruct (Nat.eqb (List.length all') 0) eqn:Z.
  - split; [repeat split|]. rewrite copies_agree. split; [intros (X & _); discriminate X|]. intros X. rewrite X in Z. discriminate Z.
  - split; [repeat split|]. rewrite copies_agree. split; [intros (_ & X & _); injection X as X; exact X|]. intros ->. repeat split.
Qed.
Theorem validity_copied check s : reached s -> decides check (s_vars s) (s_asserted s) ->
  exists b, shows scode bool (has_valid check s) true (Some b) None /\ (b = true <-> exists a, satisfies a (s_asserted s)) /\
    shows scode bool (passed scode bool (Some (fun b => b)) ByCopy (has_valid check s)) true (Some true) None.
Proof.
  intros Re D. destruct (has_valid_first check s Re D) as (b & H & I). exists b. rewrite H. split; [repeat split|]. split; [exact I|]. repeat split.
Qed.
