(** Examples for adding to a solver while it enumerates. *)
From Coq Require Import List ZArith Arith Bool Ascii String Lia.
From Verif Require Import Text ConstraintModel ConfigurationModel FeatureTreeModel FeatureTransactionModel FeatureTransactionExamples FeatureBuildExamples SolverModel SolverSpec SolverExamples
  SessionModel SessionSpec SessionProofs.
Import ListNotations.
Local Open Scope string_scope.
Local Open Scope list_scope.

Lemma trying_right l ts : (forall a, satisfies a ts -> exists b, In b l /\ satisfies b ts) -> right_about (trying l) ts.
Proof.
  intros H. unfold right_about, trying. destruct (find _ l) as [a|] eqn:E.
  - apply find_some in E. destruct E as (_ & E). intros t I. rewrite forallb_forall in E. exact (E t I).
  - intros a Sa. destruct (H a Sa) as (b & I & Sb). pose proof (find_none _ _ E b I) as N. cbn in N. assert (forallb (beval b) ts = true) as X by (apply forallb_forall; exact Sb). congruence.
Qed.

(** Options a and b; a or b is required after the first configuration. *)
Definition two (x y : bool) : assignment := Assignment (fun n => if text_eqb n (T "a") then x else y) (fun _ => 0%Z) (fun _ => 0%Z).
Definition pairs : list assignment := [two false false; two true false; two false true; two true true].
Definition a_or_b : cexpr cref := CBin BOr (CFeat (Own (T "a"))) (CFeat (Own (T "b"))).
Definition session94 : list session_call :=
  [Ask; Add (CallName (T "a")); Add (CallName (T "b")); Next; Add (CallConstraint heap0 a_or_b); Next; Current; Add (CallName (T "a")); Ask].
Definition longer94 : list session_call := session94 ++ [Next; Next].
Definition seen94 (e : answer) : list (option text) :=
  match e with Gave (inl c) => map (option_value c) [T "a"; T "b"] | _ => [] end.
Definition tell (b : bool) : option text := Some (if b then T "true" else T "false").

Definition state94 (p : list session_call) : solver := match session_run (trying pairs) 0 p new_solver with Some (s, _) => s | None => new_solver end.
Definition answers94 (p : list session_call) : list answer := match session_run (trying pairs) 0 p new_solver with Some (_, es) => es | None => [] end.
Lemma right94 p : In p [session94; longer94] -> right_about (trying pairs) (s_asserted (state94 p)).
Proof.
  assert (E : forall q : list bterm, (forall a, satisfies a q -> forall t, In t q -> beval (two (a_bool a (T "a")) (a_bool a (T "b"))) t = beval a t) -> right_about (trying pairs) q).
  { intros q H. apply trying_right. intros a Sa. exists (two (a_bool a (T "a")) (a_bool a (T "b"))). split.
    - unfold pairs. destruct (a_bool a (T "a")), (a_bool a (T "b")); cbn; tauto.
    - intros t I. rewrite (H a Sa t I). exact (Sa t I). }
  intros [<-|[<-|[]]]; apply E; intros a _ t I; vm_compute in I; repeat (destruct I as [<-|I]; [reflexivity|]); destruct I.
Qed.
Lemma plain94 : no_late_options 0 session94 /\ no_late_options 0 longer94.
Proof.
  split; intros p1 x p2 s1 ns s2 ms E X R1 R2; vm_compute in R2; injection R2 as <- _;
  repeat (destruct p1 as [|y p1]; [cbn in E; first [discriminate E|injection E as <- <-];
    first [destruct X; discriminate|vm_compute in R1; injection R1 as <- _; reflexivity]|cbn in E; injection E as <- E]).
  all: destruct p1; discriminate.
Qed.
Example session_example :
  session_run (trying pairs) 0 session94 new_solver = Some (state94 session94, answers94 session94) /\ session_run (trying pairs) 0 longer94 new_solver = Some (state94 longer94, answers94 longer94) /\
  right_about (trying pairs) (s_asserted (state94 session94)) /\ right_about (trying pairs) (s_asserted (state94 longer94)) /\ no_late_options 0 session94 /\ no_late_options 0 longer94 /\
  map seen94 (answers94 longer94) =
    [[]; []; []; [tell false; tell false]; []; [tell true; tell false]; [tell true; tell false]; []; []; [tell false; tell true]; [tell true; tell true]] /\
  nth_error (answers94 session94) 0 = Some (Told (inl true)) /\ nth_error (answers94 session94) 7 = Some (Said (Some AlreadyPresent)) /\ nth_error (answers94 session94) 8 = Some (Told (inr IllegalState)) /\
  snd (get_next (trying pairs) (state94 longer94)) = inr Unsat.
Proof.
  split; [vm_compute; reflexivity|]. split; [vm_compute; reflexivity|]. split; [apply right94; cbn; auto|]. split; [apply right94; cbn; auto|]. split; [apply plain94|]. split; [apply plain94|].
  repeat split; vm_compute; reflexivity.
Qed.

(** Options that are added after all configurations were given are not enumerated. *)
Definition late94 : list session_call := [Add (CallName (T "a")); Next; Next; Add (CallName (T "b"))].
Lemma late_options : exists check fuel p s es s0 a, session_run check fuel p new_solver = Some (s, es) /\ right_about check (s_asserted s) /\
  session_run (fun _ => None) fuel (filter adds p) new_solver = Some (s0, filter said es) /\ satisfies a (s_asserted s0) /\
  snd (get_next check s) = inr Unsat /\ forall d, In (Gave (inl d)) es -> forall a', ~ shows (s_vars s0) d a'.
Proof.
  exists (trying pairs), 0, late94, (state94 late94), (answers94 late94), (Solver [(T "a", SBool); (T "b", SBool)] [] None), (two true true).
  split; [vm_compute; reflexivity|]. split.
  { apply trying_right. intros a Sa. exfalso. pose proof (Sa _ (or_introl eq_refl)) as A. pose proof (Sa _ (or_intror (or_introl eq_refl))) as B. cbn in A, B. destruct (a_bool a _); discriminate. }
  split; [vm_compute; reflexivity|]. split; [intros t []|]. split; [vm_compute; reflexivity|].
  intros d I a' (A & _). destruct (A (T "b") SBool (or_intror (or_introl eq_refl))) as (v & O & _). vm_compute in I.
  repeat (destruct I as [I|I]; [try discriminate I; injection I as <-; vm_compute in O; discriminate|]). destruct I.
Qed.

(** The current configuration need not be valid any more. *)
Definition stale94 : list session_call := [Add (CallName (T "a")); Next; Add (CallValues (T "n") [5; 7]%Z)].
Lemma stale_current : exists check fuel p s es s0 c, session_run check fuel p new_solver = Some (s, es) /\ right_about check (s_asserted s) /\
  session_run (fun _ => None) fuel (filter adds p) new_solver = Some (s0, filter said es) /\ (exists a, satisfies a (s_asserted s0)) /\
  snd (get_current check s) = inl c /\ forall a, satisfies a (s_asserted s0) -> ~ shows (s_vars s0) c a.
Proof.
  pose (five := Assignment (fun _ => true) (fun _ => 5%Z) (fun _ => 0%Z)). pose (chk := trying [two false false; five]).
  pose (s := match session_run chk 0 stale94 new_solver with Some (s, _) => s | None => new_solver end).
  pose (es := match session_run chk 0 stale94 new_solver with Some (_, es) => es | None => [] end).
  exists chk, 0, stale94, s, es, (Solver [(T "a", SBool); (T "n", SInt)] [one_of (T "n") [5; 7]%Z] None), (configuration [(T "a", SBool); (T "n", SInt)] (two false false)).
  split; [vm_compute; reflexivity|]. split.
  { unfold right_about. assert (chk (s_asserted s) = Some five) as -> by (vm_compute; reflexivity). intros t I. vm_compute in I. repeat (destruct I as [<-|I]; [reflexivity|]). destruct I. }
  split; [vm_compute; reflexivity|]. split; [exists five; intros t [<-|[]]; reflexivity|]. split; [vm_compute; reflexivity|].
  intros a Sa (A & _). destruct (A (T "n") SInt (or_intror (or_introl eq_refl))) as (v & O & Sh). specialize (Sa _ (or_introl eq_refl)).
  assert (v = T "0") as -> by (vm_compute in O; injection O as <-; reflexivity). cbn in Sa. cbn in Sh.
  assert (a_int a (T "n") = 5 \/ a_int a (T "n") = 7)%Z as D by (change (T "n") with ["n"%char] in *; cbn in *; lia).
  cbn in D. destruct Sh as [(_ & Sh)|(L & _)]; destruct D as [D|D]; first [rewrite D in Sh|rewrite D in L]; [vm_compute in Sh; discriminate|vm_compute in Sh; discriminate|lia|lia].
Qed.
