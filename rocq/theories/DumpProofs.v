(** Proofs about the printed form of a feature model. *)
From Coq Require Import List ZArith NArith Arith Bool Ascii String Lia Permutation.
From Verif Require Import Text TextProofs SourceRangeModel FeatureTreeModel FeatureTreeSpec FeatureTreeProofs FeatureOrderProofs FeatureTransactionModel FeatureEditSpec FeatureEditProofs FeatureRemoveProofs FeatureDataProofs FeatureHistoryProofs FeatureCloneProofs.
From Verif Require Import GraphvizModel GraphvizSpec GraphvizProofs GraphvizReadProofs DumpModel DumpSpec.
Import ListNotations.
Local Open Scope string_scope.
Local Open Scope list_scope.

(** ** Entries of features *)
Definition feature_names (ts : list tree) : list text := flat_map (fun k => match rdata k with NFeature g => [f_name g] | NRelationship _ => [] end) ts.
Lemma feature_kids h o n d ts : holds h o (Node n d ts) -> exists cs, all_some (child_text h) (map rid ts) = Some cs /\ List.concat cs = enumerated (feature_names ts).
Proof.
  intros H. assert (forall us, incl us ts -> exists cs, all_some (child_text h) (map rid us) = Some cs /\ List.concat cs = enumerated (feature_names us)) as G; [|apply G; apply incl_refl].
  induction us as [|u us IH]; intros I; [exists []; split; reflexivity|]. destruct IH as (cs & A & C); [intros x Ix; apply I; right; exact Ix|].
  cbn [map all_some]. unfold child_text at 1. rewrite (holds_top h (Some n) u (holds_kid h o n d ts u H (I u (or_introl eq_refl)))). cbn [bind n_data]. rewrite A. cbn [bind].
  eexists. split; [reflexivity|]. cbn [List.concat feature_names flat_map]. fold (feature_names us). unfold enumerated. rewrite flat_map_app. fold (enumerated (feature_names us)). rewrite C.
  destruct (rdata u) as [g|k]; cbn [flat_map]; rewrite ?app_nil_r; reflexivity.
Qed.
Lemma text_of_entry f p cs o (Lo : list text) :
  Lo = map range_text (f_locations f) ->
  T "{" ++ [nl] ++ ((T "  name: " ++ quoted (f_name f) ++ T "," ++ [nl] ++ T "  optional: " ++ (if f_optional f then T "true" else T "false") ++ separator ++
    locations_text (f_locations f) ++ match p with None => [] | Some s => T "parent: " ++ s ++ separator end ++ T "children: [" ++ enumerated cs ++ T "]") ++
    match o with Some v => values_text v | None => [] end) ++ [nl] ++ T "}" ++ [nl] =
  on_lines (entry_lines (Entry (f_name f) (f_optional f) Lo p cs o)).
Proof.
  intros ->. unfold entry_lines, on_lines, locations_text, values_text, separator. cbn [e_name e_optional e_locations e_parent e_children e_values].
  rewrite !flat_map_app. cbn [flat_map]. change newline with nl. change in_quotes with quoted.
  assert (forall ls, flat_map (fun r => T "[" ++ range_text r ++ T "]") ls = flat_map (fun l => T "[" ++ l ++ T "]") (map range_text ls)) as Fl.
  { induction ls as [|l ls IH]; [reflexivity|]. cbn [map flat_map]. rewrite IH. reflexivity. }
  assert (forall vs, flat_map (fun z => print_Z z ++ T ",") vs = enumerated (map print_Z vs)) as Fv.
  { induction vs as [|l ls IH]; [reflexivity|]. unfold enumerated in *. cbn [map flat_map]. rewrite IH. reflexivity. }
  rewrite Fl. generalize (quoted (f_name f)). intros N. generalize (enumerated cs). intros C.
  generalize (if f_optional f then T "true" else T "false"). intros B.
  destruct (f_locations f) as [|l ls]; cbn [map flat_map]; [|generalize (flat_map (fun l0 => T "[" ++ l0 ++ T "]") (map range_text ls)); intros L];
  destruct p as [p|]; (destruct o as [[lo hi|vs]|]; [| |]); cbn [flat_map]; rewrite ?app_nil_r; rewrite ?Fv; try generalize (print_Z lo) (print_Z hi); intros; try generalize (enumerated (map print_Z vs)); intros;
  rewrite <- ?app_assoc; reflexivity.
Qed.

Lemma feature_entry h m t u : represents h m t -> subtree u t -> is_feature (rdata u) = true ->
  exists e s, states t u e /\ dump_feature h (s, rid u) = Some (on_lines (entry_lines e)).
Proof.
  intros R U F. destruct (rdata u) as [f|k] eqn:D; [|discriminate]. destruct (holds_sub h None t u (rep_holds _ _ _ R) U) as (q & Hu).
  pose proof (rep_feature_at h m t u f R U D) as Fa. pose proof (holds_top h q u Hu) as C.
  assert (exists p, parent_text h (rid u) = Some (match p with None => [] | Some s => T "parent: " ++ s ++ separator end) /\
    (rid u = rid t -> p = None) /\ (forall s, rid u <> rid t -> (p = Some s <-> exists v g, subtree v t /\ rdata v = NFeature g /\ In u (near (kids v)) /\ s = f_name g))) as (p & Pt & P1 & P2).
  { destruct (Nat.eq_dec (rid u) (rid t)) as [E|N].
    - exists None. split; [unfold parent_text; rewrite E, (parent_feature_root h t (rep_holds _ _ _ R)); reflexivity|]. split; [reflexivity|]. intros s N. contradiction.
    - destruct (rep_owner h m t u R U) as (v & V & Fv & I & P); [rewrite D; reflexivity|exact N|]. destruct (rdata v) as [g|k] eqn:Dv; [|discriminate].
      exists (Some (f_name g)). unfold parent_text. rewrite P. cbn [bind]. unfold name_at. rewrite (rep_feature_at h m t v g R V Dv). cbn [bind]. split; [reflexivity|].
      split; [contradiction|]. intros s _. split; [intros E; injection E as <-; exists v, g; auto|]. intros (v' & g' & V' & Dv' & I' & ->). f_equal.
      destruct (holds_sub h None t v' (rep_holds _ _ _ R) V') as (q' & Hv'). pose proof (subtree_nodup v' t V' (rep_ids _ _ _ R)) as Nv. destruct v' as [n d ts].
      pose proof (parent_feature_near h q' n d ts u (rep_ok _ _ _ R) Hv' Nv) as P'. cbn [rdata] in Dv'. subst d. specialize (P' eq_refl I'). rewrite P in P'. injection P' as E.
      assert (v = Node n (NFeature g') ts) as -> by (apply (subtree_unique t); [apply (rep_ids _ _ _ R)|exact V|exact V'|exact E]). cbn [rdata] in Dv. congruence. }
  exists (Entry (f_name f) (f_optional f) (map range_text (f_locations f)) p (feature_names (kids u)) (match f_kind f with FNumeric v _ => Some v | _ => None end)), (f_name f).
  split.
  - constructor; cbn [e_name e_optional e_locations e_parent e_children e_values]; [exists f; auto 10|exact P1|exact P2|reflexivity].
  - unfold dump_feature. cbn [snd]. unfold feature_text. rewrite Fa. cbn [bind]. unfold base_text. rewrite Fa. cbn [bind]. rewrite C. cbn [bind n_edges]. rewrite Pt. cbn [bind].
    destruct u as [n d ts]. cbn [kids rid] in *. destruct (feature_kids h q n d ts Hu) as (cs & -> & Ec). cbn [bind]. rewrite Ec.
    rewrite <- (text_of_entry f p (feature_names ts) (match f_kind f with FNumeric v _ => Some v | _ => None end) _ eq_refl). destruct (f_kind f); reflexivity.
Qed.
Lemma dump_ignores_key h s s' i : dump_feature h (s, i) = dump_feature h (s', i).
Proof. reflexivity. Qed.

Lemma dump_lists order h m t : represents h m t -> (forall l, Permutation (order l) l) -> exists es, dump_model order h m = Some (dumped es) /\ lists t es.
Proof.
  intros R Or.
  assert (forall l, incl l (m_features m) -> exists us es ts, all_some (dump_feature h) l = Some ts /\ List.concat ts = on_lines (flat_map entry_lines es) /\ Forall2 (states t) us es /\
    map rid us = map snd l /\ forall u, In u us -> subtree u t /\ is_feature (rdata u) = true) as G.
  { induction l as [|(s, i) l IH]; intros I; [exists [], [], []; repeat (split; [try reflexivity; constructor|]); contradiction|].
    destruct IH as (us & es & ts & A & Ct & F2 & Ei & Us); [intros x Ix; apply I; right; exact Ix|].
    assert (In (s, i) (named t)) as Hn by (eapply Permutation_in; [apply (rep_features _ _ _ R)|apply I; left; reflexivity]). apply named_subtree in Hn. destruct Hn as (u & f & U & Ru & D & Nf).
    destruct (feature_entry h m t u R U) as (e & s' & St & Du); [rewrite D; reflexivity|]. exists (u :: us), (e :: es), (on_lines (entry_lines e) :: ts).
    cbn [all_some]. rewrite <- Ru, (dump_ignores_key h s s'), Du. cbn [bind]. rewrite A. split; [reflexivity|]. split; [cbn [List.concat flat_map]; rewrite Ct; unfold on_lines; rewrite flat_map_app; reflexivity|].
    split; [constructor; assumption|]. split; [cbn [map snd]; rewrite Ei; reflexivity|]. intros v [<-|Iv]; [|auto]. split; [exact U|rewrite D; reflexivity]. }
  destruct (G (order (m_features m))) as (us & es & ts & A & Ct & F2 & Ei & Us).
  { intros x Ix. eapply Permutation_in; [apply Or|exact Ix]. }
  exists es. split.
  - unfold dump_model. rewrite A. cbn [bind]. rewrite Ct. unfold dumped, on_lines. rewrite flat_map_app. cbn [flat_map app]. reflexivity.
  - exists us. split; [|split; [|exact F2]].
    + rewrite Ei. eapply Permutation_NoDup; [apply Permutation_map; symmetry; apply Or|]. eapply Permutation_NoDup; [apply Permutation_map; symmetry; apply (rep_features _ _ _ R)|].
      pose proof (rep_ids _ _ _ R) as N. eapply Permutation_NoDup in N; [|apply ids_named_groups]. clear -N. induction (map snd (named t)) as [|x l IH]; [constructor|]. cbn [app] in N. inversion N as [|? ? Nx Nl]; subst.
      constructor; [intros I; apply Nx; apply in_app_iff; left; exact I|auto].
    + intros u. split; [apply Us|]. intros (U & F). destruct (rdata u) as [f|k] eqn:D; [|discriminate].
      assert (In (rid u) (map rid us)) as I.
      { rewrite Ei. apply (in_map snd) with (x := (f_name f, rid u)). eapply Permutation_in; [symmetry; apply Or|]. eapply Permutation_in; [symmetry; apply (rep_features _ _ _ R)|].
        apply named_subtree. exists u, f. auto. }
      apply in_map_iff in I. destruct I as (v & E & Iv). assert (v = u) as <-; [|exact Iv]. apply (subtree_unique t); [apply (rep_ids _ _ _ R)|apply Us; exact Iv|exact U|exact E].
Qed.
