(** The features below a feature are a part of the features of the whole model. *)
From Coq Require Import List Bool Arith Permutation Sorted Lia.
From Verif Require Import Text FeatureTreeModel FeatureTreeSpec FeatureTreeProofs FeatureOrderProofs FeatureEditProofs
  SolverEncodingProofs TreeIterModel TreeIterSpec TreeIterProofs.
Import ListNotations.
Local Open Scope list_scope.

Definition unless (visited : list nid) (c : nid) : bool := negb (mem c visited).
Lemma push_filter visited sorted : forall rest,
  fold_left (fun s c => if mem c visited then s else c :: s) sorted rest = rev (filter (unless visited) sorted) ++ rest.
Proof.
  induction sorted as [|x l IH]; intros rest; [reflexivity|]. cbn [fold_left filter]. unfold unless at 1.
  destruct (mem x visited); cbn [negb]; rewrite IH; [reflexivity|]. cbn [rev]. rewrite <- app_assoc. reflexivity.
Qed.
Lemma filter_more n visited l : (forall x, In x (filter (unless [n]) l) -> ~ In x visited) ->
  filter (unless (set_insert n visited)) l = filter (unless [n]) l.
Proof.
  intros N. induction l as [|x l IH]; [reflexivity|]. cbn [filter] in *.
  destruct (unless [n] x) eqn:E.
  - assert (X : unless (set_insert n visited) x = true).
    { unfold unless in *. apply negb_true_iff in E. apply negb_true_iff. apply mem_false in E. apply mem_false.
      intros J. apply in_set_insert in J. destruct J as [->|J]; [apply E; left; reflexivity|]. exact (N x (or_introl eq_refl) J). }
    rewrite X. f_equal. apply IH. intros y I. apply N. right. exact I.
  - assert (X : unless (set_insert n visited) x = false).
    { unfold unless in *. apply negb_false_iff in E. apply negb_false_iff. apply mem_spec in E. apply mem_spec.
      apply in_set_insert. left. destruct E as [->|[]]. reflexivity. }
    rewrite X. apply IH. exact N.
Qed.

Section Slices.
Variable ord : list nid -> list nid.
Variable h : heap.
Hypothesis Ord : is_order ord.
Hypothesis O : heap_ok h.

(** The children an iterator pushes do not depend on where it came from. *)
Lemma pushes n d ts p : holds h p (Node n d ts) -> NoDup (ids (Node n d ts)) ->
  exists us, Permutation us (near ts) /\
    forall rest visited, (forall x, In x (flat_map ids ts) -> ~ In x visited) ->
      dfs_next ord h (Dfs (n :: rest) visited) = Some (Dfs (map rid us ++ rest) (set_insert n visited)).
Proof.
  intros H D. destruct (dfs_next_tree ord Ord h p n d ts [] [] O H D (fun x _ X => X)) as (us & P & _ & E).
  exists us. split; [exact P|]. intros rest visited V. unfold dfs_next in *. cbn [d_frontier d_visited] in *.
  destruct (child_features ord h n) as [cs|]; [|discriminate E]. cbn [bind] in *.
  destruct (fold_left _ cs (Some [])) as [sorted|]; [|discriminate E]. cbn [bind] in *.
  rewrite push_filter in *. rewrite !app_nil_r in E. injection E as E. change (set_insert n []) with [n] in E.
  f_equal. f_equal. f_equal. rewrite filter_more; [exact E|].
  intros x I J. assert (X : In x (map rid us)) by (rewrite <- E; apply -> in_rev; exact I).
  apply in_map_iff in X as (u & <- & Iu). apply (V (rid u)); [|exact J]. apply near_incl. apply in_flat_map.
  exists u. split; [exact (Permutation_in _ P Iu)|apply rid_in_ids].
Qed.

Definition clean (us : list tree) (V : list nid) : Prop :=
  (forall u, In u us -> exists p, holds h p u) /\ NoDup (flat_map ids us) /\ forall x, In x (flat_map ids us) -> ~ In x V.

Lemma clean_step n d ts us ws V : clean (Node n d ts :: ws) V -> Permutation us (near ts) -> clean (us ++ ws) (set_insert n V).
Proof.
  intros (H & D & N) P.
  assert (Pi : Permutation (flat_map ids (us ++ ws)) (flat_map ids (near ts) ++ flat_map ids ws)).
  { rewrite flat_map_app. apply Permutation_app_tail. apply permutation_flat_map. exact P. }
  cbn [flat_map] in D, N. pose proof D as D0. apply nodup_app in D. destruct D as (D1 & D2 & D3).
  destruct (H _ (or_introl eq_refl)) as (p & Hp). split; [|split].
  - intros u I. apply in_app_iff in I. destruct I as [I|I].
    + apply (Permutation_in _ P) in I. exact (holds_near h p n d ts u Hp I).
    + apply H. right. exact I.
  - apply (Permutation_NoDup (Permutation_sym Pi)). cbn [ids] in D1. inversion D1 as [|? ? _ D1']; subst.
    apply nodup_app. split; [apply near_nodup; exact D1'|]. split; [exact D2|].
    intros x Ix. apply D3. right. exact (near_incl ts x Ix).
  - intros x I J. apply (Permutation_in _ Pi) in I. apply in_app_iff in I. apply in_set_insert in J.
    destruct J as [->|J].
    + destruct I as [I|I].
      * cbn [ids] in D1. inversion D1 as [|? ? M _]; subst. apply M. exact (near_incl ts n I).
      * apply (D3 n); [left; reflexivity|exact I].
    + apply (N x); [|exact J]. apply in_app_iff. destruct I as [I|I]; [left; right; exact (near_incl ts x I)|right; exact I].
Qed.
Lemma clean_next n d ts ws V : clean (Node n d ts :: ws) V ->
  exists us, Permutation us (near ts) /\ forall ws' V', clean (Node n d ts :: ws') V' ->
    dfs_next ord h (Dfs (map rid (Node n d ts :: ws')) V') = Some (Dfs (map rid (us ++ ws')) (set_insert n V')).
Proof.
  intros (H & D & _). destruct (H _ (or_introl eq_refl)) as (p & Hp).
  assert (D1 : NoDup (ids (Node n d ts))) by (cbn [flat_map] in D; apply nodup_app in D; tauto).
  destruct (pushes n d ts p Hp D1) as (us & P & E). exists us. split; [exact P|].
  intros ws' V' (_ & _ & N'). rewrite map_app. cbn [map rid]. apply E. intros x I. apply N'. cbn [flat_map]. apply in_app_iff. left. right. exact I.
Qed.
Lemma clean_tail u us V : clean (u :: us) V -> clean us V.
Proof.
  intros (H & D & N). split; [intros v I; apply H; right; exact I|]. split.
  - cbn [flat_map] in D. apply nodup_app in D. tauto.
  - intros x I. apply N. cbn [flat_map]. apply in_app_iff. right. exact I.
Qed.

Definition loop k us V := dfs_loop ord k h (Dfs (map rid us) V) (Dfs [] []).
Lemma loop_cons k n d ts ws V us : dfs_next ord h (Dfs (map rid (Node n d ts :: ws)) V) = Some (Dfs (map rid (us ++ ws)) (set_insert n V)) ->
  loop (S k) (Node n d ts :: ws) V = let* l := loop k (us ++ ws) (set_insert n V) in Some (n :: l).
Proof. intros E. unfold loop at 1. cbn [dfs_loop]. rewrite E. reflexivity. Qed.
Lemma loop_visited k : forall us V V', clean us V -> clean us V' -> loop k us V = loop k us V'.
Proof.
  induction k as [|k IH]; intros us V V' C C'; [reflexivity|]. destruct us as [|[n d ts] ws]; [reflexivity|].
  destruct (clean_next n d ts ws V C) as (us & P & E).
  rewrite (loop_cons k n d ts ws V us (E ws V C)), (loop_cons k n d ts ws V' us (E ws V' C')).
  rewrite (IH (us ++ ws) (set_insert n V) (set_insert n V')); [reflexivity|apply clean_step with d ts; assumption..].
Qed.
Lemma loop_more k : forall us V l, clean us V -> loop k us V = Some l -> forall j, loop (j + k) us V = Some l.
Proof.
  induction k as [|k IH]; intros us V l C E j; [discriminate E|]. rewrite Nat.add_succ_r. destruct us as [|[n d ts] ws]; [exact E|].
  destruct (clean_next n d ts ws V C) as (us & P & N). rewrite (loop_cons k n d ts ws V us (N ws V C)) in E. rewrite (loop_cons (j + k) n d ts ws V us (N ws V C)).
  destruct (loop k (us ++ ws) (set_insert n V)) as [q|] eqn:Q; [|discriminate E].
  rewrite (IH _ _ q (clean_step n d ts us ws V C P) Q j). exact E.
Qed.
Lemma loop_fun k k' us V l l' : clean us V -> loop k us V = Some l -> loop k' us V = Some l' -> l = l'.
Proof.
  intros C E E'. apply (loop_more k us V l C) with (j := k') in E. apply (loop_more k' us V l' C) with (j := k) in E'.
  rewrite Nat.add_comm in E'. rewrite E in E'. injection E' as ->. reflexivity.
Qed.

Lemma clean_app us vs V : clean (us ++ vs) V -> clean us V /\ clean vs V.
Proof.
  intros (H & D & N). rewrite flat_map_app in D, N. apply nodup_app in D. destruct D as (D1 & D2 & _). split; (split; [|split]).
  - intros u I. apply H. apply in_app_iff. left. exact I.
  - exact D1.
  - intros x I. apply N. apply in_app_iff. left. exact I.
  - intros u I. apply H. apply in_app_iff. right. exact I.
  - exact D2.
  - intros x I. apply N. apply in_app_iff. right. exact I.
Qed.
Lemma loop_split k : forall us vs V l, clean (us ++ vs) V -> loop k (us ++ vs) V = Some l ->
  exists l1 l2 k1 k2, l = l1 ++ l2 /\ loop k1 us V = Some l1 /\ loop k2 vs V = Some l2.
Proof.
  induction k as [|k IH]; intros us vs V l C E; [discriminate E|]. destruct us as [|[n d ts] ws].
  { exists [], l, 1, (S k). split; [reflexivity|]. split; [reflexivity|exact E]. }
  cbn [app] in C, E. destruct (clean_next n d ts (ws ++ vs) V C) as (us & P & N). rewrite (loop_cons k n d ts (ws ++ vs) V us (N _ V C)) in E.
  destruct (loop k (us ++ ws ++ vs) (set_insert n V)) as [q|] eqn:Q; [|discriminate E]. injection E as <-.
  pose proof (clean_step n d ts us (ws ++ vs) V C P) as C1. rewrite app_assoc in C1, Q.
  destruct (IH _ _ _ _ C1 Q) as (l1 & l2 & k1 & k2 & -> & E1 & E2).
  change (Node n d ts :: ws ++ vs) with ((Node n d ts :: ws) ++ vs) in C. destruct (clean_app _ _ _ C) as (Ca & Cb).
  exists (n :: l1), l2, (S k1), k2. split; [reflexivity|]. split.
  - rewrite (loop_cons k1 n d ts ws V us (N _ V Ca)), E1. reflexivity.
  - rewrite <- E2. apply loop_visited; [exact Cb|exact (proj2 (clean_app _ _ _ C1))].
Qed.

Lemma clean_one u p : holds h p u -> NoDup (ids u) -> clean [u] [].
Proof.
  intros H D. split; [intros v [<-|[]]; exists p; exact H|]. cbn [flat_map]. rewrite app_nil_r. split; [exact D|]. intros x _ [].
Qed.
Lemma loop_from u p : holds h p u -> NoDup (ids u) -> loop (S (h_next h)) [u] [] = Some (from ord h (rid u)).
Proof.
  intros H D. destruct (clean_one u p H D) as (A & B & C).
  destruct (dfs_loop_tree ord Ord h O (S (h_next h)) [u] [] A B C) as (l & E & _).
  - cbn [flat_map]. rewrite app_nil_r. pose proof (ids_length h p u O H D). lia.
  - unfold loop, from, dfs_start. cbn [map] in *. rewrite E. reflexivity.
Qed.

Lemma slices N : forall u p, length (ids u) <= N -> holds h p u -> NoDup (ids u) -> is_feature (rdata u) = true ->
  forall f, In f (feature_ids u) -> exists a b, from ord h (rid u) = a ++ from ord h f ++ b.
Proof.
  induction N as [|N IH]; intros [n d ts] p L H D F f I; [cbn [ids length] in L; lia|].
  cbn [feature_ids] in I. cbn [rdata] in F. rewrite F in I. destruct I as [<-|I].
  { exists [], []. rewrite app_nil_r. reflexivity. }
  cbn [app] in I. rewrite <- near_feature_ids in I. apply in_flat_map in I as (v & Iv & If).
  pose proof (clean_one _ p H D) as C. destruct (clean_next n d ts [] [] C) as (us & P & E).
  pose proof (loop_from _ p H D) as Lf. rewrite (loop_cons _ n d ts [] [] us (E [] [] C)) in Lf.
  destruct (loop (h_next h) (us ++ []) (set_insert n [])) as [q|] eqn:Q; [|discriminate Lf]. injection Lf as Lf.
  pose proof (clean_step n d ts us [] [] C P) as C1. rewrite app_nil_r in C1, Q.
  pose proof (Permutation_in _ (Permutation_sym P) Iv) as Iu. apply in_split in Iu as (us1 & us2 & ->).
  destruct (loop_split _ us1 (v :: us2) _ _ C1 Q) as (l1 & l2 & k1 & k2 & -> & _ & E2).
  pose proof (proj2 (clean_app _ _ _ C1)) as C2. change (v :: us2) with ([v] ++ us2) in C2, E2.
  destruct (loop_split _ [v] us2 _ _ C2 E2) as (l3 & l4 & k3 & k4 & -> & E3 & _).
  destruct (holds_near h p n d ts v H Iv) as (pv & Hv).
  assert (Dv : NoDup (ids v)).
  { destruct (clean_app _ _ _ C2) as ((_ & Dv & _) & _). cbn [flat_map] in Dv. rewrite app_nil_r in Dv. exact Dv. }
  assert (X : l3 = from ord h (rid v)).
  { pose proof (clean_one v pv Hv Dv) as Cv. apply (loop_fun k3 (S (h_next h)) [v] [] l3 _ Cv).
    - rewrite <- E3. apply loop_visited; [exact Cv|exact (proj1 (clean_app _ _ _ C2))].
    - exact (loop_from v pv Hv Dv). }
  assert (Lv : length (ids v) <= N).
  { cbn [ids length] in L. assert (incl (ids v) (flat_map ids ts)).
    { intros x Ix. apply near_incl. apply in_flat_map. exists v. auto. }
    pose proof (NoDup_incl_length Dv H0). lia. }
  destruct (IH v pv Lv Hv Dv (near_feature ts v Iv) f If) as (a & b & Y).
  exists (n :: l1 ++ a), (b ++ l4). cbn [rid] in *. rewrite <- Lf, X, Y. cbn [app]. f_equal. rewrite <- !app_assoc. reflexivity.
Qed.
End Slices.

Lemma places_in_one_list ord h t : is_order ord -> heap_ok h -> holds h None t -> NoDup (ids t) -> is_feature (rdata t) = true ->
  exists from low,
    (forall u, subtree u t -> is_feature (rdata u) = true -> preorder u (from (rid u)) /\ low (rid u) = lname u) /\
    (forall u f, subtree u t -> is_feature (rdata u) = true -> In f (feature_ids u) -> exists a b, from (rid u) = a ++ from f ++ b) /\
    forall os, proper t 0 os ->
      (exists gs, place_run ord h (Some (rid t)) os [] = Some gs) /\
      forall gs, place_run ord h (Some (rid t)) os [] = Some gs <-> views from low (rid t) [] os gs.
Proof.
  intros Ord O H D F. exists (from ord h), (low h). split; [|split].
  - intros u U Fu. split; [exact (proj2 (from_sub ord h t Ord O H D F u U Fu))|exact (low_sub h t H u U Fu)].
  - intros u f U Fu I. destruct (holds_sub h None t u H U) as (p & Hu).
    exact (slices ord h Ord O (length (ids u)) u p (le_n _) Hu (subtree_nodup u t U D) Fu f I).
  - intros os P. destruct (run_views ord h t Ord O H D F os [] [] (Forall2_nil _) P) as (gs & E & V).
    split; [eauto|]. intros gs'. split.
    + intros E'. rewrite E in E'. injection E' as <-. exact V.
    + intros V'. rewrite (views_fun _ _ _ _ _ _ _ V' V). exact E.
Qed.
