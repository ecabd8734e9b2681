(** When iterators over features are equal. *)
From Coq Require Import List Bool Arith Permutation Lia.
From Verif Require Import Text FeatureTreeModel FeatureTreeSpec FeatureTreeProofs FeatureOrderProofs FeatureEditProofs
  SolverEncodingProofs FeatureTreeExamples FeatureTreeFinal TextProofs CountExamples TreeIterModel TreeIterSpec TreeIterProofs
  TreeIterSlices.
Import ListNotations.
Local Open Scope list_scope.

Lemma skipn_all_iff {A} (l : list A) n : skipn n l = [] <-> length l <= n.
Proof.
  revert n. induction l as [|x l IH]; intros [|n]; cbn [skipn length]; split; intros E; try reflexivity; try lia; try discriminate.
  - apply IH in E. lia.
  - apply IH. lia.
Qed.

Section Tree.
Variable ord : list nid -> list nid.
Variable h : heap.
Variable t : tree.
Hypothesis Ord : is_order ord.
Hypothesis O : heap_ok h.
Hypothesis H : holds h None t.
Hypothesis D : NoDup (ids t).
Hypothesis F : is_feature (rdata t) = true.
Hypothesis Names : distinct_names t.

Let agr := agrees ord h t.

Lemma low_distinct f g : In f (feature_ids t) -> In g (feature_ids t) -> low h f = low h g -> f = g.
Proof.
  intros I J E. apply feature_ids_subtree in I as (u & U & <- & Fu). apply feature_ids_subtree in J as (v & V & <- & Fv).
  rewrite (low_sub h t H u U Fu), (low_sub h t H v V Fv) in E. rewrite (Names u v U V Fu Fv E). reflexivity.
Qed.
Lemma same_heads a b k l : agr a k -> agr b l -> (at_same (low h) k l <-> hd_error k = hd_error l).
Proof.
  intros [_ A] [_ B]. destruct k as [|x k], l as [|y l]; cbn [hd_error].
  - split; [reflexivity|constructor].
  - split; [intros S; inversion S|discriminate].
  - split; [intros S; inversion S|discriminate].
  - split.
    + intros S. inversion S as [|? ? ? ? E]; subst. f_equal. apply low_distinct; [apply A; left; reflexivity|apply B; left; reflexivity|exact E].
    + intros E. injection E as ->. constructor. reflexivity.
Qed.

(** Running the first part of a program; [Q] holds of what is to come. *)
Lemma run_part (Q : list nid -> Prop) os r :
  Q [] -> Q (from ord h (rid t)) -> (forall l, Q l -> Q (tl l)) -> (forall f, In (PFrom f) os -> Q (from ord h f)) ->
  forall v w, Forall2 agr v w -> Forall Q w -> proper t (length v) (os ++ r) ->
  exists v' w' gs, Forall2 agr v' w' /\ Forall Q w' /\ proper t (length v') r /\ length gs = length os /\
    place_run ord h (Some (rid t)) (os ++ r) v = option_map (app gs) (place_run ord h (Some (rid t)) r v').
Proof.
  intros Q0 Q1 Qt. induction os as [|o os IH]; intros Qf v w A W P.
  - exists v, w, []. split; [exact A|]. split; [exact W|]. split; [exact P|]. split; [reflexivity|]. cbn [app].
    destruct (place_run ord h (Some (rid t)) r v); reflexivity.
  - cbn [app] in P. destruct P as (U & I & P). destruct (step_sees ord h t Ord O H D F o v w A U I) as (v1 & w1 & g & E & S & A1 & L).
    assert (W1 : Forall Q w1).
    { inversion S; subst; try exact W; try (apply Forall_app; split; [exact W|constructor; [|constructor]]).
      - exact Q1.
      - exact Q0.
      - apply Qf. left. reflexivity.
      - rewrite Forall_forall in W. apply W. eapply nth_error_In. eassumption.
      - apply Forall_app in W. destruct W as (Wa & Wb). inversion Wb as [|? ? Wl Wc]; subst.
        apply Forall_app. split; [exact Wa|]. constructor; [apply Qt; exact Wl|]. apply Forall_app. split; [exact Wc|]. constructor; [apply Qt; exact Wl|constructor].
      - apply Forall_app in W. destruct W as (Wa & Wb). inversion Wb as [|? ? Wl Wc]; subst.
        apply Forall_app. split; [exact Wa|]. constructor; [apply Qt; exact Wl|]. apply Forall_app. split; [exact Wc|]. constructor; [exact Wl|constructor]. }
    rewrite <- L in P. destruct (IH (fun f X => Qf f (or_intror X)) v1 w1 A1 W1 P) as (v' & w' & gs & A' & W' & P' & L' & E').
    exists v', w', (g :: gs). split; [exact A'|]. split; [exact W'|]. split; [exact P'|]. split; [cbn; rewrite L'; reflexivity|].
    cbn [app place_run]. rewrite E. cbn [bind]. rewrite E'. destruct (place_run ord h (Some (rid t)) r v'); reflexivity.
Qed.

(** Steps of the first iterator only. *)
Lemma steps n r : forall v d l e, nth_error v 0 = Some d -> agr d l -> nth_error v 1 = Some e ->
  exists v' d' gs, nth_error v' 0 = Some d' /\ agr d' (skipn n l) /\ nth_error v' 1 = Some e /\
    place_run ord h (Some (rid t)) (repeat (PStep 0) n ++ r) v = option_map (app gs) (place_run ord h (Some (rid t)) r v').
Proof.
  induction n as [|n IH]; intros v d l e E0 A E1.
  - exists v, d, []. split; [exact E0|]. split; [exact A|]. split; [exact E1|]. cbn [repeat app].
    destruct (place_run ord h (Some (rid t)) r v); reflexivity.
  - destruct (agrees_next ord h t d l A) as (d1 & N1 & A1).
    assert (X0 : nth_error (put_nth 0 d1 v ++ [d1]) 0 = Some d1) by (destruct v; [discriminate E0|reflexivity]).
    assert (X1 : nth_error (put_nth 0 d1 v ++ [d1]) 1 = Some e).
    { destruct v as [|x [|y v]]; cbn in E1 |- *; try discriminate; exact E1. }
    destruct (IH _ d1 (tl l) e X0 A1 X1) as (v' & d' & gs & E0' & A' & E1' & R).
    exists v', d', (GNothing :: gs). split; [exact E0'|]. split.
    { replace (skipn (S n) l) with (skipn n (tl l)); [exact A'|]. destruct l; [destruct n; reflexivity|reflexivity]. }
    split; [exact E1'|]. cbn [repeat app place_run place_step]. rewrite E0. cbn [bind]. rewrite N1. cbn [bind]. rewrite R.
    destruct (place_run ord h (Some (rid t)) r v'); reflexivity.
Qed.
(** How many steps there are to the end. *)
Lemma distance u n : subtree u t -> is_feature (rdata u) = true ->
  exists gs e, place_run ord h (Some (rid t)) ([PFrom (rid u); PEnd] ++ repeat (PStep 0) n ++ [PSame 0 1]) [] = Some (gs ++ [GTruth e]) /\
    (e = true <-> length (feature_ids u) <= n).
Proof.
  intros U Fu. destruct (from_sub ord h t Ord O H D F u U Fu) as (_ & Pre).
  destruct (step_sees ord h t Ord O H D F (PFrom (rid u)) [] [] (Forall2_nil _) (Forall_nil _)) as (v1 & w1 & g1 & E1 & S1 & A1 & L1).
  { intros f X. injection X as <-. apply feature_ids_subtree. exists u. auto. }
  destruct (step_sees ord h t Ord O H D F PEnd v1 w1 A1 (Forall_nil _)) as (v2 & w2 & g2 & E2 & S2 & A2 & L2); [intros f X; discriminate X|].
  inversion S1; subst. inversion S2; subst. cbn [app] in A2. inversion A2 as [|d ? v3 ? R0 A3]; subst. inversion A3 as [|e ? v4 ? R1 A4]; subst. inversion A4; subst.
  destruct (steps n [PSame 0 1] [d; e] d _ e eq_refl R0 eq_refl) as (v' & d' & gs & X0 & R & X1 & E).
  destruct (agrees_equal ord h t H d' e _ _ R R1) as (q & Q & Y).
  exists ([GNothing; GNothing] ++ gs), q. split.
  - cbn [app]. cbn [place_run]. rewrite E1. cbn [bind]. rewrite E2. cbn [bind]. rewrite E.
    cbn [place_run place_step]. rewrite X0, X1. cbn [bind]. rewrite Q. reflexivity.
  - rewrite Y, <- (Permutation_length (preorder_features u _ Pre Fu)). rewrite <- skipn_all_iff. split.
    + intros S. inversion S. reflexivity.
    + intros ->. constructor.
Qed.

Lemma app_same_length {A} (a a' b b' : list A) : length a = length a' -> a ++ b = a' ++ b' -> a = a' /\ b = b'.
Proof.
  revert a'. induction a as [|x a IH]; intros [|x' a'] L E; cbn in L, E; try discriminate; [auto|].
  injection L as L. injection E as -> E. destruct (IH a' L E) as (-> & ->). auto.
Qed.

Lemma compared os i j gs a b e : proper t 0 (os ++ [PGet i; PGet j; PSame i j]) -> length gs = length os ->
  place_run ord h (Some (rid t)) (os ++ [PGet i; PGet j; PSame i j]) [] = Some (gs ++ [GFeature a; GFeature b; GTruth e]) ->
  (e = true <-> a = b).
Proof.
  intros P L E.
  destruct (run_part (fun _ => True) os [PGet i; PGet j; PSame i j] I I (fun _ _ => I) (fun _ _ => I) [] [] (Forall2_nil _) (Forall_nil _) P)
    as (v & w & gs' & A & _ & P' & L' & E').
  rewrite E' in E. cbn [proper uses makes] in P'. destruct P' as (Ui & _ & Uj & _ & _). inversion Ui as [|? ? Li _]; subst.
  rewrite Nat.add_0_r in Uj. inversion Uj as [|? ? Lj _]; subst.
  destruct (has_nth v i Li) as (d & Ei). destruct (has_nth v j Lj) as (d' & Ej).
  destruct (forall2_nth agr v w i d A Ei) as (k & Ei' & Ri). destruct (forall2_nth agr v w j d' A Ej) as (l & Ej' & Rj).
  destruct (agrees_equal ord h t H d d' k l Ri Rj) as (q & X & Y).
  cbn [place_run place_step] in E. repeat (first [rewrite Ei in E | rewrite Ej in E | rewrite X in E]; cbn [bind place_run place_step] in E). cbn [option_map] in E.
  injection E as E. apply app_same_length in E; [|congruence]. destruct E as (_ & E). injection E as <- <- <-.
  rewrite Y, (same_heads d d' k l Ri Rj), (todo_top ord h d k (proj1 Ri)), (todo_top ord h d' l (proj1 Rj)). reflexivity.
Qed.

Lemma suffix_same {A} (L : list A) k l : NoDup L -> (exists a, L = a ++ k) -> (exists b, L = b ++ l) -> hd_error k = hd_error l -> k = l.
Proof.
  intros N (a & ->) (b & E). destruct k as [|x k], l as [|y l]; cbn [hd_error]; try discriminate; [reflexivity|].
  intros X. injection X as <-. revert b E. induction a as [|z a IH]; intros [|z' b] E; cbn in *.
  - injection E as ->. reflexivity.
  - injection E as -> E. inversion N as [|? ? M _]; subst. exfalso. apply M. apply in_app_iff. right. left. reflexivity.
  - injection E as -> E. inversion N as [|? ? M _]; subst. exfalso. apply M. apply in_app_iff. right. left. reflexivity.
  - injection E as -> E. inversion N; subst. eapply IH; eassumption.
Qed.

(** Equal iterators stay equal. *)
Lemma together os i j gs g2 g3 e : only_begin_end os -> proper t 0 (os ++ [PSame i j; PStep i; PStep j; PSame i j]) -> i <> j -> length gs = length os ->
  place_run ord h (Some (rid t)) (os ++ [PSame i j; PStep i; PStep j; PSame i j]) [] = Some (gs ++ [GTruth true; g2; g3; GTruth e]) ->
  e = true.
Proof.
  intros B P Nij L E. set (Q := fun l : list nid => exists a, from ord h (rid t) = a ++ l).
  assert (Pre : preorder t (from ord h (rid t))) by exact (proj2 (from_sub ord h t Ord O H D F t (sub_refl t) F)).
  assert (N : NoDup (from ord h (rid t))).
  { apply (Permutation_NoDup (Permutation_sym (preorder_features t _ Pre F))). apply feature_ids_nodup. exact D. }
  assert (Qt : forall l, Q l -> Q (tl l)).
  { intros [|x l] (a & X); [exists a; exact X|]. exists (a ++ [x]). rewrite <- app_assoc. exact X. }
  destruct (run_part Q os [PSame i j; PStep i; PStep j; PSame i j]) with (v := @nil dfs) (w := @nil (list nid))
    as (v & w & gs' & A & W & P' & L' & E').
  - exists (from ord h (rid t)). rewrite app_nil_r. reflexivity.
  - exists []. reflexivity.
  - exact Qt.
  - intros f X. destruct (B f X).
  - constructor.
  - constructor.
  - exact P.
  - rewrite E' in E. cbn [proper uses makes] in P'. destruct P' as (U & _). inversion U as [|? ? Li U']; subst. inversion U' as [|? ? Lj _]; subst.
    destruct (has_nth v i Li) as (d & Ei). destruct (has_nth v j Lj) as (d' & Ej).
    destruct (forall2_nth agr v w i d A Ei) as (k & Ei' & Ri). destruct (forall2_nth agr v w j d' A Ej) as (l & Ej' & Rj).
    destruct (agrees_equal ord h t H d d' k l Ri Rj) as (q & X & Y).
    destruct (agrees_next ord h t d k Ri) as (d1 & N1 & R1). destruct (agrees_next ord h t d' l Rj) as (d2 & N2 & R2).
    destruct (agrees_equal ord h t H d1 d2 (tl k) (tl l) R1 R2) as (q2 & X2 & Y2).
    assert (G : forall (x y : dfs) (v : list dfs) i j, i <> j -> nth_error v j = Some y -> nth_error (put_nth i x v) j = Some y).
    { clear. intros x y v. induction v as [|z v IH]; intros [|i] [|j] Nij E; cbn in *; try discriminate; try congruence; auto. }
    assert (G2 : forall (x y : dfs) (v : list dfs) i, nth_error v i = Some y -> nth_error (put_nth i x v) i = Some x).
    { clear. intros x y v. induction v as [|z v IH]; intros [|i] E; cbn in *; try discriminate; eauto. }
    assert (G3 : forall (v : list dfs) x i y, nth_error v i = Some y -> nth_error (v ++ [x]) i = Some y).
    { clear. intros v x i y E. rewrite nth_error_app1; [exact E|]. apply nth_error_Some. rewrite E. discriminate. }
    pose proof (G3 _ d1 _ _ (G d1 d' v i j Nij Ej)) as Ej1.
    pose proof (G3 _ d2 _ _ (G d2 d1 _ j i (fun Z => Nij (eq_sym Z)) (G3 _ d1 _ _ (G2 d1 d v i Ei)))) as Ei2.
    pose proof (G3 _ d2 _ _ (G2 d2 d' _ j Ej1)) as Ej2.
    cbn [place_run place_step] in E.
    repeat (first [rewrite Ei in E | rewrite Ej in E | rewrite X in E | rewrite N1 in E | rewrite Ej1 in E | rewrite N2 in E | rewrite Ei2 in E | rewrite Ej2 in E | rewrite X2 in E]; cbn [bind place_run place_step] in E).
    cbn [option_map] in E.
    injection E as E. apply app_same_length in E; [|congruence]. destruct E as (_ & E). injection E as Eq _ _ <-. subst q.
    apply Y2. pose proof (proj1 Y eq_refl) as S. apply (same_heads d d' k l Ri Rj) in S.
    rewrite Forall_forall in W.
    assert (K : k = l) by exact (suffix_same _ k l N (W k (nth_error_In _ _ Ei')) (W l (nth_error_In _ _ Ej')) S).
    subst l. destruct (tl k); constructor. reflexivity.
Qed.
Lemma proper_from os r : forall n, proper t n (os ++ r) -> forall f, In (PFrom f) os -> In f (feature_ids t).
Proof.
  induction os as [|o os IH]; intros n P f I; [destruct I|]. cbn [app proper] in P. destruct P as (_ & X & P).
  destruct I as [->|I]; [apply X; reflexivity|exact (IH _ P f I)].
Qed.
Lemma parts_next {A} (L : list A) k l : NoDup L -> (exists a b, L = a ++ k ++ b) -> (exists a b, L = a ++ l ++ b) -> hd_error k = hd_error l ->
  hd_error (tl k) = hd_error (tl l) \/ hd_error (tl k) = None \/ hd_error (tl l) = None.
Proof.
  intros N (a & b & E) (a' & b' & E') X. destruct k as [|x k]; [right; left; reflexivity|]. destruct l as [|y l]; [right; right; reflexivity|].
  injection X as <-. assert (K : (x :: k) ++ b = (x :: l) ++ b') by (apply (suffix_same L); [exact N|eauto|eauto|reflexivity]).
  cbn [app tl] in *. injection K as K. destruct k as [|z k]; [right; left; reflexivity|]. destruct l as [|z' l]; [right; right; reflexivity|].
  left. injection K as -> _. reflexivity.
Qed.

(** Equal iterators part only where one of them ends. *)
Lemma part_at_an_end os i j gs g2 g3 a b : proper t 0 (os ++ [PSame i j; PStep i; PStep j; PGet i; PGet j]) -> i <> j -> length gs = length os ->
  place_run ord h (Some (rid t)) (os ++ [PSame i j; PStep i; PStep j; PGet i; PGet j]) [] = Some (gs ++ [GTruth true; g2; g3; GFeature a; GFeature b]) ->
  a = b \/ a = None \/ b = None.
Proof.
  intros P Nij L E. set (Q := fun l : list nid => exists a b, from ord h (rid t) = a ++ l ++ b).
  assert (Pre : preorder t (from ord h (rid t))) by exact (proj2 (from_sub ord h t Ord O H D F t (sub_refl t) F)).
  assert (N : NoDup (from ord h (rid t))).
  { apply (Permutation_NoDup (Permutation_sym (preorder_features t _ Pre F))). apply feature_ids_nodup. exact D. }
  assert (Qt : forall l, Q l -> Q (tl l)).
  { intros [|x l] (u & v & X); [exists u, v; exact X|]. exists (u ++ [x]), v. rewrite <- app_assoc. exact X. }
  destruct (run_part Q os [PSame i j; PStep i; PStep j; PGet i; PGet j]) with (v := @nil dfs) (w := @nil (list nid))
    as (v & w & gs' & A & W & P' & L' & E').
  - exists (from ord h (rid t)), []. rewrite !app_nil_r. reflexivity.
  - exists [], []. rewrite app_nil_r. reflexivity.
  - exact Qt.
  - intros f X. exact (slices ord h Ord O (length (ids t)) t None (le_n _) H D F f (proper_from os _ 0 P f X)).
  - constructor.
  - constructor.
  - exact P.
  - rewrite E' in E. cbn [proper uses makes] in P'. destruct P' as (U & _). inversion U as [|? ? Li U']; subst. inversion U' as [|? ? Lj _]; subst.
    destruct (has_nth v i Li) as (d & Ei). destruct (has_nth v j Lj) as (d' & Ej).
    destruct (forall2_nth agr v w i d A Ei) as (k & Ei' & Ri). destruct (forall2_nth agr v w j d' A Ej) as (l & Ej' & Rj).
    destruct (agrees_equal ord h t H d d' k l Ri Rj) as (q & X & Y).
    destruct (agrees_next ord h t d k Ri) as (d1 & N1 & R1). destruct (agrees_next ord h t d' l Rj) as (d2 & N2 & R2).
    assert (G : forall (x y : dfs) (v : list dfs) i j, i <> j -> nth_error v j = Some y -> nth_error (put_nth i x v) j = Some y).
    { clear. intros x y v. induction v as [|z v IH]; intros [|i] [|j] Nij E; cbn in *; try discriminate; try congruence; auto. }
    assert (G2 : forall (x y : dfs) (v : list dfs) i, nth_error v i = Some y -> nth_error (put_nth i x v) i = Some x).
    { clear. intros x y v. induction v as [|z v IH]; intros [|i] E; cbn in *; try discriminate; eauto. }
    assert (G3 : forall (v : list dfs) x i y, nth_error v i = Some y -> nth_error (v ++ [x]) i = Some y).
    { clear. intros v x i y E. rewrite nth_error_app1; [exact E|]. apply nth_error_Some. rewrite E. discriminate. }
    pose proof (G3 _ d1 _ _ (G d1 d' v i j Nij Ej)) as Ej1.
    pose proof (G3 _ d2 _ _ (G d2 d1 _ j i (fun Z => Nij (eq_sym Z)) (G3 _ d1 _ _ (G2 d1 d v i Ei)))) as Ei2.
    pose proof (G3 _ d2 _ _ (G2 d2 d' _ j Ej1)) as Ej2.
    cbn [place_run place_step] in E.
    repeat (first [rewrite Ei in E | rewrite Ej in E | rewrite X in E | rewrite N1 in E | rewrite Ej1 in E | rewrite N2 in E | rewrite Ei2 in E | rewrite Ej2 in E]; cbn [bind place_run place_step] in E).
    cbn [option_map] in E.
    injection E as E. apply app_same_length in E; [|congruence]. destruct E as (_ & E). injection E as Eq _ _ <- <-. subst q.
    pose proof (proj1 Y eq_refl) as S. apply (same_heads d d' k l Ri Rj) in S.
    rewrite (todo_top ord h d1 _ (proj1 R1)), (todo_top ord h d2 _ (proj1 R2)).
    rewrite Forall_forall in W.
    exact (parts_next _ k l N (W k (nth_error_In _ _ Ei')) (W l (nth_error_In _ _ Ej')) S).
Qed.
End Tree.

(** Examples *)
Definition program98 : list place_op := [PBegin; PStep 0; PFrom 1; PSame 0 2; PStep 0; PStep 2; PSame 0 2; PGet 0; PGet 2].
Definition program98b : list place_op := [PBegin; PCopy 0; PEnd; PPost 0; PGet 3; PGet 0; PDiffer 0 2].
Definition program98c : list place_op := [PFrom 1; PFrom 2; PSame 0 1; PGet 0; PGet 1].
Ltac show_proper :=
  cbn [proper uses makes Nat.add app program98 program98b program98c];
  repeat match goal with
  | |- _ /\ _ => split
  | |- True => exact I
  | |- Forall _ [] => apply Forall_nil
  | |- Forall _ (_ :: _) => apply Forall_cons; [lia|]
  | |- forall f, _ = PFrom f -> _ => let f := fresh in let E := fresh in intros f E; first [discriminate E | injection E as <-; vm_compute; tauto]
  end.
Lemma program98_proper : proper tree1 0 program98.
Proof.
  show_proper.
Qed.
Lemma program98_sees : place_run (@rev nid) heap1 (Some 0) program98 [] =
  Some [GNothing; GNothing; GNothing; GTruth true; GNothing; GNothing; GTruth false; GFeature (Some 2); GFeature None].
Proof. vm_compute. reflexivity. Qed.
Lemma program98b_proper : only_begin_end program98b /\ proper tree1 0 (program98b ++ [PSame 0 1; PStep 0; PStep 1; PSame 0 1]) /\
  place_run (@rev nid) heap1 (Some 0) (program98b ++ [PStep 1; PSame 0 1; PStep 0; PStep 1; PSame 0 1]) [] =
    Some [GNothing; GNothing; GNothing; GNothing; GFeature (Some 0); GFeature (Some 1); GTruth true; GNothing; GTruth true; GNothing; GNothing; GTruth true].
Proof.
  split; [intros f I; repeat (destruct I as [I|I]; [discriminate I|]); destruct I|].
  split; [show_proper|vm_compute; reflexivity].
Qed.
Definition program98d : list place_op := [PBegin; PStep 0; PFrom 1].
Lemma program98d_parts : proper tree1 0 (program98d ++ [PSame 0 2; PStep 0; PStep 2; PGet 0; PGet 2]) /\
  place_run (@rev nid) heap1 (Some 0) (program98d ++ [PSame 0 2; PStep 0; PStep 2; PGet 0; PGet 2]) [] =
    Some ([GNothing; GNothing; GNothing] ++ [GTruth true; GNothing; GNothing; GFeature (Some 2); GFeature None]).
Proof. split; [unfold program98d; show_proper|vm_compute; reflexivity]. Qed.
Lemma distances1 : exists u, subtree u tree1 /\ is_feature (rdata u) = true /\ length (feature_ids u) = 2 /\
  place_run (@rev nid) heap1 (Some 0) [PFrom (rid u); PEnd; PStep 0; PSame 0 1] [] =
    Some [GNothing; GNothing; GNothing; GTruth false] /\
  place_run (@rev nid) heap1 (Some 0) [PFrom (rid u); PEnd; PStep 0; PStep 0; PSame 0 1] [] =
    Some [GNothing; GNothing; GNothing; GNothing; GTruth true].
Proof.
  eexists. split.
  - eapply sub_kid; [left; reflexivity|]. eapply sub_kid; [left; reflexivity|]. apply sub_refl.
  - split; [reflexivity|]. split; [reflexivity|]. split; vm_compute; reflexivity.
Qed.
Lemma distinct1 : distinct_names tree1.
Proof.
  intros u v U V Fu Fv E. apply parts_in in U. apply parts_in in V. cbn [parts tree1 flat_map app] in U, V.
  cbn [In] in U, V.
  destruct U as [U|[U|[U|[U|[U|[U|[]]]]]]]; destruct V as [V|[V|[V|[V|[V|[V|[]]]]]]]; subst u v;
    first [reflexivity | discriminate Fu | discriminate Fv | exfalso; vm_compute in E; discriminate E].
Qed.
(** "X" and "x" below the root. *)
Lemma program98c_sees : heap_ok heap2 /\ holds heap2 None tree2 /\ NoDup (ids tree2) /\ proper tree2 0 program98c /\
  place_run (@rev nid) heap2 (Some 0) program98c [] =
    Some [GNothing; GNothing; GTruth true; GFeature (Some 1); GFeature (Some 2)].
Proof.
  assert (N : NoDup (ids tree2)) by (repeat constructor; cbn; intuition lia).
  split; [apply plant_ok; repeat constructor; lia|]. split; [apply plant_holds; exact N|]. split; [exact N|].
  split; [show_proper|].
  vm_compute. reflexivity.
Qed.

Lemma rev_order : is_order (@rev nid).
Proof. intros l. symmetry. apply Permutation_rev. Qed.
Lemma different_features : exists ord h t os f g,
  is_order ord /\ heap_ok h /\ holds h None t /\ NoDup (ids t) /\ proper t 0 os /\ f <> g /\
  place_run ord h (Some (rid t)) (os ++ [PGet 0; PGet 1; PSame 0 1]) [] =
    Some [GNothing; GNothing; GFeature (Some f); GFeature (Some g); GTruth true].
Proof.
  destruct program98c_sees as (O & H & N & P & _).
  exists (@rev nid), heap2, tree2, [PFrom 1; PFrom 2], 1, 2. split; [exact rev_order|]. repeat (split; [assumption|]).
  split; [show_proper|]. split; [discriminate|]. vm_compute. reflexivity.
Qed.
Lemma apart : exists ord h t os gs,
  is_order ord /\ heap_ok h /\ holds h None t /\ NoDup (ids t) /\ distinct_names t /\ proper t 0 os /\
  place_run ord h (Some (rid t)) (os ++ [PSame 0 2; PStep 0; PStep 2; PSame 0 2]) [] =
    Some (gs ++ [GTruth true; GNothing; GNothing; GTruth false]).
Proof.
  destruct example_tree1 as (O & H & N & _).
  exists (@rev nid), heap1, tree1, [PBegin; PStep 0; PFrom 1], [GNothing; GNothing; GNothing].
  split; [exact rev_order|]. repeat (split; [assumption|]). split; [exact distinct1|].
  split; [show_proper|]. vm_compute. reflexivity.
Qed.
