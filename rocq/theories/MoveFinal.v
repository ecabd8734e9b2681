(** Moving transactions: proofs. *)
From Coq Require Import List Arith Bool Ascii Permutation Lia.
From Verif Require Import Text ConstraintModel SourceRangeModel FeatureTreeModel FeatureTreeSpec FeatureTransactionModel FeatureEditSpec FeatureHistoryProofs MoveModel MoveSpec.
Import ListNotations.

(** ** Variables *)
Lemma var_set l v t u : var (set_var l v t) u = if Nat.eqb u v then (match var l v with Some _ => Some t | None => None end) else var l u.
Proof.
  induction l as [|[x y] l IH]; cbn [set_var var]; [destruct (Nat.eqb u v); reflexivity|]. destruct (Nat.eqb_spec x v) as [->|N]; cbn [var].
  - rewrite (Nat.eqb_sym u v). destruct (Nat.eqb_spec v u); reflexivity.
  - destruct (Nat.eqb_spec x u) as [->|Nu]; [|exact IH]. destruct (Nat.eqb_spec u v); [contradiction|reflexivity].
Qed.
Lemma var_none l v : var l v = None <-> ~ In v (map fst l).
Proof.
  induction l as [|[x y] l IH]; cbn [var map fst In]; [tauto|]. destruct (Nat.eqb_spec x v) as [->|N]; [split; [discriminate|tauto]|]. rewrite IH. tauto.
Qed.
Lemma var_drop l v u : NoDup (map fst l) -> var (drop_var l v) u = if Nat.eqb u v then None else var l u.
Proof.
  induction l as [|[x y] l IH]; cbn [drop_var var map fst]; intros ND; [destruct (Nat.eqb u v); reflexivity|]. apply NoDup_cons_iff in ND. destruct ND as [N ND].
  destruct (Nat.eqb_spec x v) as [->|Nx]; cbn [var].
  - rewrite (Nat.eqb_sym u v). destruct (Nat.eqb_spec v u) as [->|]; [apply var_none; exact N|reflexivity].
  - destruct (Nat.eqb_spec x u) as [->|Nu]; [|exact (IH ND)]. destruct (Nat.eqb_spec u v); [contradiction|reflexivity].
Qed.
Lemma keys_set l v t : map fst (set_var l v t) = map fst l.
Proof. induction l as [|[x y] l IH]; cbn [set_var]; [reflexivity|]. destruct (Nat.eqb x v); cbn; congruence. Qed.
Lemma keys_drop l v x : In x (map fst (drop_var l v)) -> In x (map fst l).
Proof. induction l as [|[y z] l IH]; cbn [drop_var]; [tauto|]. destruct (Nat.eqb y v); cbn; tauto. Qed.
Lemma distinct_drop l v : NoDup (map fst l) -> NoDup (map fst (drop_var l v)).
Proof.
  induction l as [|[x y] l IH]; cbn [drop_var map fst]; intros ND; [constructor|]. apply NoDup_cons_iff in ND. destruct ND as [N ND]. destruct (Nat.eqb x v); [exact ND|].
  cbn. constructor; [|exact (IH ND)]. intros I. apply N. exact (keys_drop l v x I).
Qed.

(** ** Owners *)
Section Order.
Variable ord : list nid -> list nid.

Definition shows (t : option mtx) (x : option hold) : Prop :=
  match x with
  | None => t = None
  | Some Nothing => exists b, t = Some (Mtx b [])
  | Some (Holds os) => t = Some (Mtx true os)
  | Some Over => exists q, t = Some (Mtx false q)
  end.
Definition agrees (l : list (nat * mtx)) (a : holder) : Prop := NoDup (map fst l) /\ forall v, shows (var l v) (a v).

Lemma agrees_set l a v t x : agrees l a -> var l v <> None -> shows (Some t) (Some x) -> agrees (set_var l v t) (put a v (Some x)).
Proof.
  intros [ND A] N S. split; [rewrite keys_set; exact ND|]. intros u. rewrite var_set. unfold put. destruct (Nat.eqb u v); [|apply A]. destruct (var l v); [exact S|contradiction].
Qed.
Lemma agrees_new l a v t x : agrees l a -> var l v = None -> shows (Some t) (Some x) -> agrees ((v, t) :: l) (put a v (Some x)).
Proof.
  intros [ND A] N S. split; [cbn; constructor; [apply var_none; exact N|exact ND]|]. intros u. cbn [var]. unfold put. rewrite (Nat.eqb_sym u v). destruct (Nat.eqb v u); [exact S|apply A].
Qed.
Lemma agrees_drop l a v : agrees l a -> agrees (drop_var l v) (put a v None).
Proof.
  intros [ND A]. split; [apply distinct_drop; exact ND|]. intros u. rewrite (var_drop l v u ND). unfold put. destruct (Nat.eqb u v); [reflexivity|apply A].
Qed.

Lemma makes_run os w w' : makes ord os w w' -> exists e, run ord os w = Some (w', e).
Proof.
  induction 1 as [w|o os w w1 w2 E M (e & IH)|o os w w1 e E]; cbn [run]; [exists None; reflexivity| |]; rewrite E; cbn [bind]; [exists e; exact IH|exists (Some e); reflexivity].
Qed.
Lemma makes_commits os w w' : makes ord os w w' -> sound w' -> exists e, commit_modify ord (Mtx true os) w = Some (Mtx false os, w', e).
Proof.
  intros M (t & R). destruct (makes_run os w w' M) as (e & E). unfold commit_modify. cbn [t_open t_queue]. rewrite E. cbn [bind]. destruct e as [e|]; [exists (Some e); reflexivity|].
  rewrite (represents_consistent _ _ _ R). cbn [bind]. exists None. reflexivity.
Qed.

Lemma step_meant l a w c a' w' : agrees l a -> sound w -> sound w' -> means ord (a, w) c (a', w') ->
  exists l' es, t_step ord (TState l (Some w)) c = Some (TState l' (Some w'), es) /\ agrees l' a'.
Proof.
  intros A Sw Sw' M. pose proof (proj2 A) as V. inversion M as [? ? v Hv|? ? v os o Hv|? ? u v x Hu Nx Hv|? ? u v x y N Hu Nx Hv Dy|? ? ? v os Hv Mk|? ? v x Hv Nx|? ? ? v os Hv Mk|? ? v x Hv Dx]; subst; cbn [t_step p_vars p_world].
  - specialize (V v). rewrite Hv in V. cbn in V. rewrite V. cbn [bind]. destruct Sw as (t & R). unfold open_modify. rewrite (represents_consistent _ _ _ R). cbn [bind].
    eexists _, _. split; [reflexivity|]. apply agrees_new; [exact A|exact V|reflexivity].
  - specialize (V v). rewrite Hv in V. cbn in V. rewrite V. cbn [bind enqueue t_open t_queue orb]. eexists _, _. split; [reflexivity|]. apply agrees_set; [exact A|congruence|reflexivity].
  - pose proof (V u) as Vu. rewrite Hu in Vu. specialize (V v). rewrite Hv in V. cbn in V. assert (exists t, var l u = Some t /\ shows (Some t) (Some x)) as (t & Et & St).
    { destruct x; cbn in Vu; [contradiction|eexists; split; [exact Vu|reflexivity]|destruct Vu as (q & Vu); eexists; split; [exact Vu|exists q; reflexivity]]. }
    rewrite Et, V. cbn [bind]. eexists _, _. split; [reflexivity|]. apply agrees_new; [|rewrite var_set; destruct (Nat.eqb_spec v u) as [->|]; [congruence|exact V]|exact St].
    apply agrees_set; [exact A|congruence|]. exists (t_open t). reflexivity.
  - pose proof (V u) as Vu. rewrite Hu in Vu. specialize (V v). rewrite Hv in V. destruct (Nat.eqb_spec u v) as [E|N']; [contradiction|].
    assert (exists t, var l u = Some t /\ shows (Some t) (Some x)) as (t & Et & St).
    { destruct x; cbn in Vu; [contradiction|eexists; split; [exact Vu|reflexivity]|destruct Vu as (q & Vu); eexists; split; [exact Vu|exists q; reflexivity]]. }
    assert (exists t', var l v = Some t') as (t' & Et') by (destruct Dy as [-> | ->]; cbn in V; destruct V as (q & V); eauto).
    rewrite Et. cbn [bind]. rewrite Et'. cbn [bind]. eexists _, _. split; [reflexivity|]. apply agrees_set; [|rewrite var_set; destruct (Nat.eqb_spec v u) as [->|]; [contradiction|congruence]|exact St].
    apply agrees_set; [exact A|congruence|]. exists (t_open t). reflexivity.
  - specialize (V v). rewrite Hv in V. cbn in V. rewrite V. cbn [bind]. unfold commit_var. cbn [t_open bind]. destruct (makes_commits os w w' Mk Sw') as (e & E). rewrite E. cbn [bind].
    eexists _, _. split; [reflexivity|]. apply agrees_set; [exact A|congruence|]. exists os. reflexivity.
  - specialize (V v). rewrite Hv in V. assert (exists t, var l v = Some t) as (t & Et) by (destruct x; cbn in V; [destruct V as (b & V)| |destruct V as (q & V)]; eauto).
    rewrite Et. cbn [bind]. eexists _, _. split; [reflexivity|]. apply agrees_set; [exact A|congruence|]. exists (t_queue t). reflexivity.
  - specialize (V v). rewrite Hv in V. cbn in V. rewrite V. cbn [bind t_open]. unfold commit_var. cbn [t_open bind]. destruct (makes_commits os w w' Mk Sw') as (e & E). rewrite E. cbn [bind].
    eexists _, _. split; [reflexivity|]. apply agrees_drop. exact A.
  - specialize (V v). rewrite Hv in V. assert (exists b q, var l v = Some (Mtx b q) /\ (b = false \/ q = [])) as (b & q & Et & D).
    { destruct Dx as [-> | ->]; cbn in V; [destruct V as (b & V); exists b, []; auto|destruct V as (q & V); exists false, q; auto]. }
    rewrite Et. cbn [bind t_open]. destruct b.
    + destruct D as [D|D]; [discriminate|]. subst q. unfold commit_var. cbn [t_open bind]. destruct (makes_commits [] w' w' (makes_all ord w') Sw') as (e & E). rewrite E. cbn [bind].
      eexists _, _. split; [reflexivity|]. apply agrees_drop. exact A.
    + eexists _, _. split; [reflexivity|]. apply agrees_drop. exact A.
Qed.
Lemma run_meant p : forall l a w a' w', agrees l a -> meaning ord (a, w) p (a', w') ->
  exists l' es, t_run ord (TState l (Some w)) p = Some (TState l' (Some w'), es) /\ agrees l' a'.
Proof.
  induction p as [|c p IH]; intros l a w a' w' A M; inversion M as [|? ? ? s1 ? ? Sw Me Sw1 Mr]; subst.
  - exists l, []. split; [reflexivity|exact A].
  - destruct s1 as [a1 w1]. cbn [snd] in *. destruct (step_meant l a w c a1 w1 A Sw Sw1 Me) as (l1 & e1 & E1 & A1). destruct (IH l1 a1 w1 a' w' A1 Mr) as (l2 & e2 & E2 & A2).
    exists l2, (e1 ++ e2). split; [|exact A2]. cbn [t_run]. rewrite E1. cbn [bind]. rewrite E2. reflexivity.
Qed.
Theorem owners w p a w' : meaning ord (fun _ => None, w) p (a, w') ->
  exists s es, t_run ord (t_start w) p = Some (s, es) /\ p_world s = Some w' /\ forall v, a v = None <-> var (p_vars s) v = None.
Proof.
  intros M. assert (agrees [] (fun _ => None)) as A by (split; [constructor|reflexivity]). destruct (run_meant p [] _ w a w' A M) as (l & es & E & _ & V).
  exists (TState l (Some w')), es. split; [exact E|]. split; [reflexivity|]. intros v. cbn [p_vars]. specialize (V v). destruct (a v) as [[|os|]|]; cbn in V; [destruct V as (b & ->)|rewrite V|destruct V as (q & ->)|rewrite V]; split; congruence.
Qed.

(** ** Results *)
Lemma run_each os : forall w w', run ord os w = Some (w', None) <-> makes_each ord os w w'.
Proof.
  induction os as [|o os IH]; intros w w'; cbn [run].
  - split; [intros X; injection X as <-; constructor|intros M; inversion M; reflexivity].
  - split.
    + destruct (exec ord o w) as [[w1 [e|]]|] eqn:E; cbn [bind]; [discriminate| |discriminate]. intros X. apply each_next with w1; [exact E|apply IH; exact X].
    + intros M. inversion M as [|? ? ? w1 ? E M1]; subst. rewrite E. cbn [bind]. apply IH. exact M1.
Qed.
Theorem commits_report w p a w' : meaning ord (fun _ => None, w) p (a, w') ->
  exists s es, t_run ord (t_start w) p = Some (s, es) /\ forall v t, var (p_vars s) v = Some t ->
  (a v = Some Over -> exists t', commit_var ord t (p_world s) = Some (t', Some w', [], Some ABORTED)) /\
  (forall os w2, a v = Some (Holds os) -> makes ord os w' w2 -> sound w2 ->
     exists t' e, commit_var ord t (p_world s) = Some (t', Some w2, [(os, e)], e) /\ (e = None <-> makes_each ord os w' w2)).
Proof.
  intros M. assert (agrees [] (fun _ => None)) as A by (split; [constructor|reflexivity]). destruct (run_meant p [] _ w a w' A M) as (l & es & E & _ & V).
  exists (TState l (Some w')), es. split; [exact E|]. cbn [p_vars p_world]. intros v t Vt. specialize (V v). rewrite Vt in V. split.
  - intros O. rewrite O in V. destruct V as (q & V). injection V as ->. eexists. reflexivity.
  - intros os w2 O Mk (t2 & R2). rewrite O in V. cbn in V. injection V as ->. destruct (makes_run os w' w2 Mk) as (e & Er). exists (Mtx false os), e.
    unfold commit_var, commit_modify. cbn [t_open t_queue bind]. rewrite Er. cbn [bind]. split.
    + destruct e as [e|]; [reflexivity|]. rewrite (represents_consistent _ _ _ R2). reflexivity.
    + rewrite <- run_each, Er. split; [intros ->; reflexivity|congruence].
Qed.

(** ** Accounting *)
Definition pend (t : mtx) : list op := if t_open t then t_queue t else [].
Definition pending (l : list (nat * mtx)) : list op := flat_map (fun x => pend (snd x)) l.
Lemma pending_split v : forall l t, var l v = Some t -> exists r, Permutation (pending l) (pend t ++ r) /\ (forall t', Permutation (pending (set_var l v t')) (pend t' ++ r)) /\
  Permutation (pending (drop_var l v)) r.
Proof.
  induction l as [|[x y] l IH]; cbn [var]; [discriminate|]. intros t. destruct (Nat.eqb_spec x v) as [->|N].
  - intros X. injection X as ->. exists (pending l). cbn [set_var drop_var]. rewrite Nat.eqb_refl. repeat split; intros; apply Permutation_refl.
  - intros X. destruct (IH t X) as (r & P1 & P2 & P3). exists (pend y ++ r). cbn [set_var drop_var]. destruct (Nat.eqb_spec x v); [contradiction|]. unfold pending in *. cbn [flat_map snd].
    split; [|split; [intros t'|]]; [| |rewrite P3; reflexivity]; [rewrite P1|rewrite (P2 t')]; rewrite !app_assoc; apply Permutation_app_tail; apply Permutation_app_comm.
Qed.
Lemma commit_pends t w t1 w1 es e : commit_var ord t w = Some (t1, w1, es, e) -> pend t1 = [] /\ executed es = pend t.
Proof.
  unfold commit_var, pend. destruct (t_open t) eqn:O.
  - destruct w as [w|]; cbn [bind]; [|discriminate]. unfold commit_modify. rewrite O. destruct (run ord (t_queue t) w) as [[w2 e2]|]; cbn [bind]; [|discriminate].
    destruct e2 as [c|]; cbn [bind]; [intros X; injection X as <- <- <- <-; cbn; rewrite app_nil_r; auto|].
    destruct (consistent (fst w2) (snd w2)) as [b|]; cbn [bind]; [|discriminate]. intros X. injection X as <- <- <- <-. cbn. rewrite app_nil_r. auto.
  - intros X. injection X as <- <- <- <-. auto.
Qed.
Definition keeps (s : tstate) (c : tstep) : Prop :=
  match c with TAbort _ | TAssign _ _ => False | TCall v _ => exists os, var (p_vars s) v = Some (Mtx true os) | _ => True end.
Lemma step_accounts s c s1 es : t_step ord s c = Some (s1, es) ->
  exists rest, Permutation (executed es ++ pending (p_vars s1) ++ rest) (pending (p_vars s) ++ queued [c]) /\ (keeps s c -> rest = []).
Proof.
  destruct s as [l w]. destruct c as [v|v o|u v|u v|v|v|v|]; cbn [t_step p_vars p_world queued flat_map keeps].
  - destruct (var l v) as [t|]; [discriminate|]. destruct w as [w|]; cbn [bind]; [|discriminate]. unfold open_modify. destruct (consistent (fst w) (snd w)) as [[|]|]; cbn [bind]; try discriminate.
    intros X. injection X as <- <-. exists []. split; [|auto]. cbn. rewrite !app_nil_r. apply Permutation_refl.
  - destruct (var l v) as [t|] eqn:V; cbn [bind]; [|discriminate]. destruct (pending_split v l t V) as (r & P1 & P2 & _). unfold enqueue.
    destruct (t_open t || negb (asserts_model o)); cbn [bind]; [|discriminate]. intros X. injection X as <- <-. cbn [p_vars executed flat_map app].
    destruct (t_open t) eqn:O.
    + exists []. split; [|auto]. rewrite app_nil_r, (P2 _), P1. unfold pend. cbn [t_open t_queue]. rewrite O, <- !app_assoc. apply Permutation_app_head. apply Permutation_app_comm.
    + exists [o]. split; [|intros (os & X); injection X as ->; discriminate O]. apply Permutation_app_tail. rewrite (P2 _), P1. unfold pend. cbn [t_open t_queue]. rewrite O. apply Permutation_refl.
  - destruct (var l u) as [t|] eqn:V; cbn [bind]; [|discriminate]. destruct (var l v); [discriminate|]. intros X. injection X as <- <-. destruct (pending_split u l t V) as (r & P1 & P2 & _).
    exists []. split; [|auto]. cbn [p_vars executed flat_map app]. unfold pending at 1. cbn [flat_map snd]. fold (pending (set_var l u (moved_from t))). rewrite !app_nil_r, (P2 _), P1. unfold pend at 2, moved_from. cbn. destruct (t_open t); apply Permutation_refl.
  - destruct (Nat.eqb_spec u v) as [|N]; [discriminate|]. destruct (var l u) as [t|] eqn:V; cbn [bind]; [|discriminate]. destruct (var l v) as [t'|] eqn:V'; cbn [bind]; [|discriminate].
    intros X. injection X as <- <-. destruct (pending_split u l t V) as (r & P1 & P2 & _).
    assert (var (set_var l u (moved_from t)) v = Some t') as V2 by (rewrite var_set; destruct (Nat.eqb_spec v u) as [->|]; [contradiction|exact V']).
    destruct (pending_split v _ t' V2) as (r' & Q1 & Q2 & _). exists (pend t'). split; [|intros []]. cbn [p_vars executed flat_map app]. rewrite (Q2 _), app_nil_r, P1.
    specialize (P2 (moved_from t)). rewrite Q1 in P2. rewrite <- app_assoc. apply Permutation_app_head. rewrite Permutation_app_comm, P2. unfold pend, moved_from. cbn. destruct (t_open t); apply Permutation_refl.
  - destruct (var l v) as [t|] eqn:V; cbn [bind]; [|discriminate]. destruct (commit_var ord t w) as [[[[t1 w1] e1] x]|] eqn:C; cbn [bind]; [|discriminate]. intros X. injection X as <- <-.
    destruct (commit_pends _ _ _ _ _ _ C) as (Pt & Ex). destruct (pending_split v l t V) as (r & P1 & P2 & _). exists []. split; [|auto]. cbn [p_vars]. rewrite !app_nil_r, (P2 _), P1, Pt, Ex. apply Permutation_refl.
  - destruct (var l v) as [t|] eqn:V; cbn [bind]; [|discriminate]. intros X. injection X as <- <-. destruct (pending_split v l t V) as (r & P1 & P2 & _). exists (pend t). split; [|intros []].
    cbn [p_vars executed flat_map app]. rewrite app_nil_r, (P2 _), P1. cbn. apply Permutation_app_comm.
  - destruct (var l v) as [t|] eqn:V; cbn [bind]; [|discriminate]. destruct (pending_split v l t V) as (r & P1 & _ & P3). destruct (t_open t) eqn:O.
    + destruct (commit_var ord t w) as [[[[t1 w1] e1] x]|] eqn:C; cbn [bind]; [|discriminate]. intros X. injection X as <- <-. destruct (commit_pends _ _ _ _ _ _ C) as (Pt & Ex).
      exists []. split; [|auto]. cbn [p_vars]. rewrite !app_nil_r, P3, P1, Ex. apply Permutation_refl.
    + intros X. injection X as <- <-. exists []. split; [|auto]. cbn [p_vars executed flat_map app]. rewrite !app_nil_r, P3, P1. unfold pend. rewrite O. apply Permutation_refl.
  - destruct w as [w|]; cbn [bind]; [|discriminate]. intros X. injection X as <- <-. exists []. split; [|auto]. cbn. rewrite !app_nil_r. apply Permutation_refl.
Qed.
Lemma executed_app a b : executed (a ++ b) = executed a ++ executed b.
Proof. apply flat_map_app. Qed.
Lemma run_accounts p : forall s s1 es, t_run ord s p = Some (s1, es) ->
  exists rest, Permutation (executed es ++ pending (p_vars s1) ++ rest) (pending (p_vars s) ++ queued p) /\
    ((forall p1 c p2 s' es', p = p1 ++ c :: p2 -> t_run ord s p1 = Some (s', es') -> keeps s' c) -> rest = []).
Proof.
  induction p as [|c p IH]; intros s s2 es; cbn [t_run].
  - intros X. injection X as <- <-. exists []. split; [|auto]. cbn. apply Permutation_refl.
  - destruct (t_step ord s c) as [[s1 e1]|] eqn:E1; cbn [bind]; [|discriminate]. destruct (t_run ord s1 p) as [[s2' e2]|] eqn:E2; cbn [bind]; [|discriminate].
    intros X. injection X as -> <-. destruct (step_accounts s c s1 e1 E1) as (r1 & P1 & K1). destruct (IH s1 s2 e2 E2) as (r2 & P2 & K2). exists (r2 ++ r1). split.
    + rewrite executed_app. change (queued (c :: p)) with (queued ([c] ++ p)). unfold queued at 1. rewrite flat_map_app. fold (queued [c]). fold (queued p).
      rewrite (app_assoc (pending (p_vars s))), <- P1. rewrite <- !app_assoc. apply Permutation_app_head. rewrite !app_assoc. rewrite <- (app_assoc (executed e2)), P2. rewrite <- !app_assoc. apply Permutation_app_head. apply Permutation_app_comm.
    + intros K. rewrite K1, K2; [reflexivity| |apply (K [] c p s []); reflexivity]. intros p1 c' p2 s' es' E R. apply (K (c :: p1) c' p2 s' (e1 ++ es')); [rewrite E; reflexivity|]. cbn [t_run]. rewrite E1. cbn [bind]. rewrite R. reflexivity.
Qed.
Theorem at_most_once w p s es : t_run ord (t_start w) p = Some (s, es) -> exists rest, Permutation (executed es ++ rest) (queued p).
Proof. intros R. destruct (run_accounts p _ _ _ R) as (r & P & _). exists (pending (p_vars s) ++ r). exact P. Qed.
Theorem exactly_once w p s es : t_run ord (t_start w) p = Some (s, es) -> lossless ord w p -> p_vars s = [] -> Permutation (executed es) (queued p).
Proof.
  intros R (NA & NS & OK) Z. destruct (run_accounts p _ _ _ R) as (r & P & K). rewrite Z in P. cbn [pending flat_map app t_start p_vars] in P. rewrite K in P; [rewrite app_nil_r in P; exact P|].
  intros p1 c p2 s' es' E R'. assert (In c p) as I by (rewrite E; apply in_or_app; right; left; reflexivity). destruct c; cbn; try exact Logic.I; [exact (OK _ _ _ _ _ _ E R')|exact (NS _ _ I)|exact (NA _ I)].
Qed.
End Order.
