(** Proofs about programs on the iterators over features. *)
From Coq Require Import List Bool Arith Permutation Lia.
From Verif Require Import Text FeatureTreeModel FeatureTreeSpec FeatureTreeProofs FeatureOrderProofs FeatureEditProofs
  SolverEncodingProofs TextProofs TreeIterModel TreeIterSpec.
Import ListNotations.
Local Open Scope list_scope.

Lemma nth_split_at {A} (v : list A) i x : nth_error v i = Some x -> exists a b, v = a ++ x :: b /\ length a = i.
Proof. intros E. exact (nth_error_split v i E). Qed.
Lemma put_split {A} (a : list A) x y b : put_nth (length a) y (a ++ x :: b) = a ++ y :: b.
Proof. induction a as [|z a IH]; [reflexivity|]. cbn [length app put_nth]. rewrite IH. reflexivity. Qed.
Lemma forall2_nth {A B} (R : A -> B -> Prop) v w i x : Forall2 R v w -> nth_error v i = Some x -> exists y, nth_error w i = Some y /\ R x y.
Proof.
  intros F. revert i. induction F as [|a b v w Rab F IH]; intros [|i] E; cbn in *; try discriminate.
  - injection E as <-. eauto.
  - exact (IH i E).
Qed.
Lemma forall2_put {A B} (R : A -> B -> Prop) v w i x y : Forall2 R v w -> R x y -> Forall2 R (put_nth i x v) (put_nth i y w).
Proof.
  intros F Rxy. revert i. induction F as [|a b v w Rab F IH]; intros [|i]; cbn [put_nth]; constructor; auto.
Qed.
Lemma forall2_snoc {A B} (R : A -> B -> Prop) v w x y : Forall2 R v w -> R x y -> Forall2 R (v ++ [x]) (w ++ [y]).
Proof. intros F Rxy. apply Forall2_app; [exact F|]. constructor; [exact Rxy|constructor]. Qed.
Lemma put_length {A} i (x : A) v : length (put_nth i x v) = length v.
Proof. revert i. induction v as [|y v IH]; intros [|i]; cbn [put_nth length]; [reflexivity..|]. rewrite IH. reflexivity. Qed.
Lemma has_nth {A} (v : list A) i : i < length v -> exists x, nth_error v i = Some x.
Proof. intros L. destruct (nth_error v i) as [x|] eqn:E; [eauto|]. apply nth_error_None in E. lia. Qed.

Section Tree.
Variable ord : list nid -> list nid.
Variable h : heap.
Variable t : tree.
Hypothesis Ord : is_order ord.
Hypothesis O : heap_ok h.
Hypothesis H : holds h None t.
Hypothesis D : NoDup (ids t).
Hypothesis F : is_feature (rdata t) = true.

Definition todo (d : dfs) (l : list nid) : Prop := exists k, dfs_loop ord k h d (Dfs [] []) = Some l.
Definition from (f : nid) : list nid :=
  match dfs_loop ord (S (h_next h)) h (dfs_start (Some f)) (Dfs [] []) with Some l => l | None => [] end.
Definition low (f : nid) : text := match lower_at h f with Some s => s | None => [] end.

Lemma todo_top d l : todo d l -> hd_error (d_frontier d) = hd_error l.
Proof.
  intros [[|k] E]; cbn [dfs_loop] in E; [discriminate|].
  unfold dfs_equal in E. cbn [d_frontier] in E. destruct (d_frontier d) as [|f r]; cbn [bind] in E.
  - injection E as <-. reflexivity.
  - destruct (dfs_next ord h d) as [d'|]; [|discriminate]. cbn [bind] in E.
    destruct (dfs_loop ord k h d' (Dfs [] [])) as [q|]; [|discriminate]. injection E as <-. reflexivity.
Qed.
Lemma todo_next d l : todo d l -> exists d', dfs_next ord h d = Some d' /\ todo d' (tl l).
Proof.
  intros [[|k] E]; cbn [dfs_loop] in E; [discriminate|].
  unfold dfs_equal in E. cbn [d_frontier] in E. destruct (d_frontier d) as [|f r] eqn:Fr; cbn [bind] in E.
  - injection E as <-. exists d. split; [unfold dfs_next; rewrite Fr; reflexivity|].
    exists 1. cbn [dfs_loop]. unfold dfs_equal. rewrite Fr. reflexivity.
  - destruct (dfs_next ord h d) as [d'|]; [|discriminate]. cbn [bind] in E.
    destruct (dfs_loop ord k h d' (Dfs [] [])) as [q|] eqn:Q; [|discriminate]. injection E as <-.
    exists d'. split; [reflexivity|]. exists k. exact Q.
Qed.
Lemma todo_end : todo (dfs_start None) [].
Proof. exists 1. reflexivity. Qed.

Lemma from_sub u : subtree u t -> is_feature (rdata u) = true -> todo (dfs_start (Some (rid u))) (from (rid u)) /\ preorder u (from (rid u)).
Proof.
  intros U Fu. destruct (holds_sub h None t u H U) as (p & Hu). pose proof (subtree_nodup u t U D) as Du.
  destruct (dfs_loop_tree ord Ord h O (S (h_next h)) [u] []) as (l & E & P).
  - intros v [<-|[]]. exists p. exact Hu.
  - cbn [flat_map]. rewrite app_nil_r. exact Du.
  - intros x _ [].
  - cbn [flat_map]. rewrite app_nil_r. pose proof (ids_length h p u O Hu Du). lia.
  - cbn [map] in E. assert (Q : from (rid u) = l) by (unfold from, dfs_start; rewrite E; reflexivity).
    rewrite Q. split; [eexists; exact E|]. exact (preorders_one _ _ P).
Qed.
Lemma low_at f : In f (feature_ids t) -> lower_at h f = Some (low f).
Proof.
  intros I. apply feature_ids_subtree in I as (u & U & <- & Fu).
  destruct (holds_sub h None t u H U) as (p & Hu). unfold low. rewrite (lower_at_tree h p u Hu Fu). reflexivity.
Qed.
Lemma low_sub u : subtree u t -> is_feature (rdata u) = true -> low (rid u) = lname u.
Proof.
  intros U Fu. destruct (holds_sub h None t u H U) as (p & Hu). unfold low. rewrite (lower_at_tree h p u Hu Fu). reflexivity.
Qed.

Definition agrees (d : dfs) (l : list nid) : Prop := todo d l /\ incl l (feature_ids t).
Lemma agrees_from f : In f (feature_ids t) -> agrees (dfs_start (Some f)) (from f).
Proof.
  intros I. pose proof I as J. apply feature_ids_subtree in J as (u & U & <- & Fu). destruct (from_sub u U Fu) as (A & B).
  split; [exact A|]. intros x X. apply (Permutation_in x (preorder_features u _ B Fu)) in X.
  apply feature_ids_subtree in X as (w & W & <- & Fw). apply feature_ids_subtree. exists w.
  split; [|split; [reflexivity|exact Fw]]. clear - W U. induction U as [|n d ts s Is U IH]; [exact W|].
  apply sub_kid with (t := s); assumption.
Qed.
Lemma agrees_next d l : agrees d l -> exists d', dfs_next ord h d = Some d' /\ agrees d' (tl l).
Proof.
  intros [A B]. destruct (todo_next d l A) as (d' & E & T). exists d'. split; [exact E|]. split; [exact T|].
  intros x I. apply B. destruct l; [destruct I|right; exact I].
Qed.
Lemma agrees_equal a b k l : agrees a k -> agrees b l -> exists e, dfs_equal h a b = Some e /\ (e = true <-> at_same low k l).
Proof.
  intros [A A'] [B B']. pose proof (todo_top _ _ A) as TA. pose proof (todo_top _ _ B) as TB. unfold dfs_equal.
  destruct (d_frontier a) as [|x xs], (d_frontier b) as [|y ys], k as [|x' k], l as [|y' l]; cbn in TA, TB; try discriminate.
  - exists true. split; [reflexivity|]. split; [constructor|reflexivity].
  - exists false. split; [reflexivity|]. split; [discriminate|]. intros S. inversion S.
  - exists false. split; [reflexivity|]. split; [discriminate|]. intros S. inversion S.
  - injection TA as <-. injection TB as <-.
    rewrite (low_at x (A' x (or_introl eq_refl))), (low_at y (B' y (or_introl eq_refl))). cbn [bind].
    eexists. split; [reflexivity|]. rewrite text_eqb_eq. split; [intros E; constructor; exact E|]. intros S. inversion S. assumption.
Qed.

Lemma root_in : In (rid t) (feature_ids t).
Proof. apply feature_ids_subtree. exists t. split; [constructor|]. split; [reflexivity|exact F]. Qed.

Lemma step_sees o v w : Forall2 agrees v w -> Forall (fun i => i < length v) (uses o) -> (forall f, o = PFrom f -> In f (feature_ids t)) ->
  exists v' w' g, place_step ord h (Some (rid t)) o v = Some (v', g) /\ sees from low (rid t) w o w' g /\
    Forall2 agrees v' w' /\ length v' = length v + makes o.
Proof.
  intros A U I.
  assert (N : forall i, i < length v -> exists d l, nth_error v i = Some d /\ nth_error w i = Some l /\ agrees d l).
  { intros i Li. destruct (has_nth v i Li) as (d & E). destruct (forall2_nth agrees v w i d A E) as (l & E' & R). eauto 6. }
  destruct o as [| |f|i|i|i|i|i j|i j]; cbn [place_step uses makes] in *.
  - eexists _, _, _. split; [reflexivity|]. split; [constructor|]. split; [|rewrite app_length; reflexivity].
    apply forall2_snoc; [exact A|]. apply agrees_from. exact root_in.
  - rewrite (parent_feature_root h t H). cbn [bind]. eexists _, _, _. split; [reflexivity|]. split; [constructor|].
    split; [|rewrite app_length; reflexivity]. apply forall2_snoc; [exact A|]. split; [exact todo_end|intros x []].
  - eexists _, _, _. split; [reflexivity|]. split; [constructor|]. split; [|rewrite app_length; reflexivity].
    apply forall2_snoc; [exact A|]. apply agrees_from. apply I. reflexivity.
  - inversion U as [|? ? U1 _]; subst. destruct (N i U1) as (d & l & E & E' & R). rewrite E. cbn [bind].
    eexists _, _, _. split; [reflexivity|]. split; [constructor; exact E'|]. split; [|rewrite app_length; reflexivity].
    apply forall2_snoc; assumption.
  - inversion U as [|? ? U1 _]; subst. destruct (N i U1) as (d & l & E & E' & R). rewrite E. cbn [bind].
    exists v, w, (GFeature (hd_error (d_frontier d))). split; [reflexivity|].
    rewrite (todo_top d l (proj1 R)). split; [|split; [exact A|lia]].
    destruct l as [|f l]; cbn [hd_error]; [constructor; exact E'|]. econstructor. exact E'.
  - inversion U as [|? ? U1 _]; subst. destruct (N i U1) as (d & l & E & E' & R). rewrite E. cbn [bind].
    destruct (agrees_next d l R) as (d' & X & R'). rewrite X. cbn [bind].
    destruct (nth_split_at w i l E') as (a & b & -> & <-).
    eexists _, _, _. split; [reflexivity|]. split; [econstructor; reflexivity|].
    split; [|rewrite app_length, put_length; reflexivity].

    replace (a ++ tl l :: b ++ [tl l]) with (put_nth (length a) (tl l) (a ++ l :: b) ++ [tl l]) by (rewrite put_split, <- app_assoc; reflexivity).
    apply forall2_snoc; [|exact R']. apply forall2_put; assumption.
  - inversion U as [|? ? U1 _]; subst. destruct (N i U1) as (d & l & E & E' & R). rewrite E. cbn [bind].
    destruct (agrees_next d l R) as (d' & X & R'). rewrite X. cbn [bind].
    destruct (nth_split_at w i l E') as (a & b & -> & <-).
    eexists _, _, _. split; [reflexivity|]. split; [econstructor; reflexivity|].
    split; [|rewrite app_length, put_length; reflexivity].
    replace (a ++ tl l :: b ++ [l]) with (put_nth (length a) (tl l) (a ++ l :: b) ++ [l]) by (rewrite put_split, <- app_assoc; reflexivity).
    apply forall2_snoc; [|exact R]. apply forall2_put; assumption.
  - inversion U as [|? ? U1 U2]; subst. inversion U2 as [|? ? U3 _]; subst.
    destruct (N i U1) as (d & l & E & E' & R). destruct (N j U3) as (d2 & l2 & E2 & E2' & R2). rewrite E, E2. cbn [bind].
    destruct (agrees_equal d d2 l l2 R R2) as (e & X & Y). rewrite X. cbn [bind].
    exists v, w, (GTruth e). split; [reflexivity|]. split; [econstructor; eassumption|]. split; [exact A|lia].
  - inversion U as [|? ? U1 U2]; subst. inversion U2 as [|? ? U3 _]; subst.
    destruct (N i U1) as (d & l & E & E' & R). destruct (N j U3) as (d2 & l2 & E2 & E2' & R2). rewrite E, E2. cbn [bind].
    destruct (agrees_equal d d2 l l2 R R2) as (e & X & Y). rewrite X. cbn [bind].
    exists v, w, (GTruth (negb e)). split; [reflexivity|]. split; [|split; [exact A|lia]].
    econstructor; [eassumption..|]. rewrite <- Y. destruct e; cbn; split; congruence.
Qed.

Lemma run_views os : forall v w, Forall2 agrees v w -> proper t (length v) os ->
  exists gs, place_run ord h (Some (rid t)) os v = Some gs /\ views from low (rid t) w os gs.
Proof.
  induction os as [|o os IH]; intros v w A P.
  - exists []. split; [reflexivity|constructor].
  - destruct P as (U & I & P). destruct (step_sees o v w A U I) as (v' & w' & g & E & S & A' & L).
    cbn [place_run]. rewrite E. cbn [bind]. rewrite <- L in P. destruct (IH v' w' A' P) as (gs & E' & V).
    rewrite E'. cbn [bind]. exists (g :: gs). split; [reflexivity|]. econstructor; eassumption.
Qed.
End Tree.

Lemma split_fun {A} (a a' : list A) x x' b b' : a ++ x :: b = a' ++ x' :: b' -> length a = length a' -> a = a' /\ x = x' /\ b = b'.
Proof.
  revert a'. induction a as [|y a IH]; intros [|y' a'] E L; cbn in E, L; try discriminate.
  - injection E as -> ->. auto.
  - injection E as -> E. injection L as L. destruct (IH a' E L) as (-> & -> & ->). auto.
Qed.
Lemma iff_bool b b' (P : Prop) : (b = true <-> P) -> (b' = true <-> P) -> b = b'.
Proof. intros X Y. destruct b, b'; try reflexivity; [symmetry; apply Y, X|apply X, Y]; reflexivity. Qed.
Lemma iff_bool_false b b' (P : Prop) : (b = false <-> P) -> (b' = false <-> P) -> b = b'.
Proof. intros X Y. destruct b, b'; try reflexivity; [apply X, Y|symmetry; apply Y, X]; reflexivity. Qed.

Lemma sees_fun from low root v o w g w' g' : sees from low root v o w g -> sees from low root v o w' g' -> w = w' /\ g = g'.
Proof.
  intros S S'. inversion S; subst; inversion S'; subst;
    repeat match goal with
    | A : nth_error ?v ?i = Some _, B : nth_error ?v ?i = Some _ |- _ => rewrite A in B; injection B as B; subst
    end; try discriminate; try (split; congruence).
  - match goal with E : _ ++ _ :: _ = _ ++ _ :: _, L : length _ = length _ |- _ =>
      symmetry in L; destruct (split_fun _ _ _ _ _ _ E L) as (-> & -> & ->) end. auto.
  - match goal with E : _ ++ _ :: _ = _ ++ _ :: _, L : length _ = length _ |- _ =>
      symmetry in L; destruct (split_fun _ _ _ _ _ _ E L) as (-> & -> & ->) end. auto.
  - split; [reflexivity|]. f_equal. eapply iff_bool; eassumption.
  - split; [reflexivity|]. f_equal. eapply iff_bool_false; eassumption.
Qed.
Lemma views_fun from low root v os gs gs' : views from low root v os gs -> views from low root v os gs' -> gs = gs'.
Proof.
  intros V. revert gs'. induction V as [v|v o v' g os gs S V IH]; intros gs' V'; inversion V'; subst; [reflexivity|].
  match goal with S' : sees _ _ _ v o _ _ |- _ => destruct (sees_fun _ _ _ _ _ _ _ _ _ S S') as (<- & <-) end.
  f_equal. apply IH. assumption.
Qed.
