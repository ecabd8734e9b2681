(** What the calls of a copy transaction report, and that closed ones do nothing. *)
From Coq Require Import List ZArith Arith Bool Ascii String.
From Verif Require Import Text FeatureTreeModel FeatureTransactionModel.
Import ListNotations.

Section Order.
Variable ord : list nid -> list nid.

Lemma copy_adds f p s h m b r : name_at h p = Some s ->
  (copy_exec ord (OAddFeature f (Some p)) h (Ctx (Some m) b) = Some r <->
   exists h' m' e, exec ord (OAddFeature f (get_feature m s)) (h, m) = Some ((h', m'), e) /\ r = (h', Ctx (Some m') b, e)).
Proof.
  intros N. unfold copy_exec. cbn [x_copy bind x_continue reported]. rewrite N. cbn [bind]. destruct (exec ord _ (h, m)) as [[[h1 m1] e1]|]; cbn [bind fst snd]; split.
  - intros E. injection E as <-. exists h1, m1, e1. split; reflexivity.
  - intros (h' & m' & e & E & ->). injection E as <- <- <-. reflexivity.
  - discriminate.
  - intros (h' & m' & e & E & _). discriminate.
Qed.
Lemma copy_direct o h m b r : (exists f, o = OAddFeature f None) \/ (exists k c, o = OAddConstraint k c) \/ (exists f, o = OSetRoot f) ->
  (copy_exec ord o h (Ctx (Some m) b) = Some r <-> exists h' m' e, exec ord o (h, m) = Some ((h', m'), e) /\ r = (h', Ctx (Some m') b, e)).
Proof.
  intros O. assert (copy_exec ord o h (Ctx (Some m) b) = (let* (w1, e) := exec ord o (h, m) in Some (fst w1, Ctx (Some (snd w1)) b, e))) as ->.
  { destruct O as [[f ->]|[[k [c ->]]|[f ->]]]; reflexivity. }
  destruct (exec ord o (h, m)) as [[[h1 m1] e1]|]; cbn [bind fst snd]; split.
  - intros E. injection E as <-. exists h1, m1, e1. split; reflexivity.
  - intros (h' & m' & e & E & ->). injection E as <- <- <-. reflexivity.
  - discriminate.
  - intros (h' & m' & e & E & _). discriminate.
Qed.
Lemma copy_groups k p s i h m b r : resolve m p = Some i -> name_at h i = Some s ->
  (copy_exec ord (OAddRelationship k p) h (Ctx (Some m) b) = Some r <->
   exists j h' m' e, get_feature m s = Some j /\ exec ord (OAddRelationship k (ByPtr j)) (h, m) = Some ((h', m'), e) /\ r = (h', Ctx (Some m') b, e)).
Proof.
  intros R N. unfold copy_exec, translate. cbn [x_copy bind x_continue reported]. rewrite R. cbn [bind]. rewrite N. cbn [bind]. destruct (get_feature m s) as [j|]; cbn [translated bind].
  - split.
    + destruct (exec ord (OAddRelationship k (ByPtr j)) (h, m)) as [[[h1 m1] e1]|] eqn:X; cbn [bind fst snd]; [|discriminate]. intros E. injection E as <-. exists j, h1, m1, e1. repeat split. exact X.
    + intros (j' & h' & m' & e & J & E & ->). injection J as <-. rewrite E. reflexivity.
  - split; [discriminate|]. intros (j' & h' & m' & e & J & _). discriminate.
Qed.
Definition gives_result (o : op) : Prop :=
  (exists f p, o = OAddFeature f p) \/ (exists k p, o = OAddRelationship k p) \/ (exists k c, o = OAddConstraint k c) \/ (exists f, o = OSetRoot f).
Lemma copy_silent o h t h' t' e : ~ gives_result o -> copy_exec ord o h t = Some (h', t', e) -> e = None.
Proof.
  unfold gives_result. intros N. unfold copy_exec. destruct (x_copy t) as [m|].
  - match goal with |- context [bind ?x _] => destruct x as [[w1 e1]|] end; cbn [bind]; [|discriminate]. intros E. injection E as _ _ <-.
    destruct o; cbn [reported]; try reflexivity; exfalso; apply N; eauto 6.
  - destruct o; try discriminate; intros E; injection E as _ _ <-; try reflexivity; exfalso; apply N; eauto 6.
Qed.
Lemma copy_closed o h t h' t' e : x_copy t = None ->
  (copy_exec ord o h t = Some (h', t', e) <-> h' = h /\ t' = t /\ (gives_result o /\ e = Some ERROR \/ (exists p c, o = OAddChild p c) /\ e = None)).
Proof.
  intros N. unfold copy_exec, gives_result. rewrite N. destruct o; (split; [intros E; try discriminate; injection E as <- <- <-; repeat split; eauto 8|]);
    intros (-> & -> & [[G ->]|[G ->]]); try reflexivity; exfalso; decompose record G || idtac;
    repeat match goal with H : _ \/ _ |- _ => destruct H | H : exists _, _ |- _ => destruct H end; discriminate.
Qed.
Lemma copy_run_closed os h t h' t' : x_copy t = None -> copy_run ord os h t = Some (h', t') -> h' = h /\ t' = t.
Proof.
  intros N. revert h. induction os as [|o os IH]; intros h; cbn [copy_run]; [intros E; injection E as <- <-; auto|].
  destruct (copy_exec ord o h t) as [[[h1 t1] e]|] eqn:X; cbn [bind]; [|discriminate]. apply (copy_closed _ _ _ _ _ _ N) in X. destruct X as (-> & -> & _). apply IH.
Qed.
Lemma closed_hands_out_nothing os h t t1 h' t' : (t1 = abort_copy t \/ exists r, commit_copy h t = Some (r, t1)) -> copy_run ord os h t1 = Some (h', t') ->
  h' = h /\ exists t2, commit_copy h' t' = Some (None, t2).
Proof.
  intros C R. assert (x_copy t1 = None) as N.
  { destruct C as [->|[r C]]; [reflexivity|]. unfold commit_copy in C. destruct (x_copy t); [destruct (x_continue t); [destruct (consistent h _) as [[]|]; cbn [bind] in C|]|]; try discriminate; injection C as _ <-; reflexivity. }
  destruct (copy_run_closed _ _ _ _ _ N R) as [-> ->]. split; [reflexivity|]. unfold commit_copy. rewrite N. eexists. reflexivity.
Qed.
End Order.
