(** What the printed form of a feature model tells. *)
From Coq Require Import List ZArith NArith Arith Bool Ascii String Lia Permutation.
From Verif Require Import Text TextProofs SourceRangeModel FeatureTreeModel FeatureTreeSpec FeatureTreeProofs FeatureTransactionModel FeatureEditSpec FeatureEditProofs FeatureTreeFinal.
From Verif Require Import GraphvizSpec GraphvizReadProofs DumpModel DumpSpec DumpProofs.
Import ListNotations.
Local Open Scope string_scope.
Local Open Scope list_scope.

(** ** Reading the text *)
Lemma print_Z_no c z : is_digit c = false -> c <> "-"%char -> ~ In c (print_Z z).
Proof.
  intros N M. assert (forall k, ~ In c (print_N k)) as G.
  { intros k I. pose proof (print_N_digits k) as D. rewrite forallb_forall in D. specialize (D c I). congruence. }
  destruct z as [|p|p]; cbn [print_Z]; try apply G. intros [E|I]; [congruence|exact (G _ I)].
Qed.
Lemma print_Z_inj a b : print_Z a = print_Z b -> a = b.
Proof.
  assert (forall k p, print_N k <> "-"%char :: p) as G.
  { intros k p E. pose proof (print_N_digits k) as D. rewrite E in D. discriminate D. }
  destruct a as [|p|p], b as [|q|q]; cbn [print_Z Z.to_N]; intros E; try reflexivity;
    try (apply print_N_inj in E; congruence); try (exfalso; exact (G _ _ E)); try (exfalso; exact (G _ _ (eq_sym E))).
  injection E as E. apply print_N_inj in E. congruence.
Qed.
Lemma enumerated_inj a : forall b r s, Forall (fun t => ~ In ","%char t) a -> Forall (fun t => ~ In ","%char t) b ->
  ~ In ","%char r -> ~ In ","%char s -> enumerated a ++ r = enumerated b ++ s -> a = b /\ r = s.
Proof.
  unfold enumerated. induction a as [|x a IH]; intros [|y b] r s Fa Fb Nr Ns E; cbn [flat_map app] in E.
  - auto.
  - exfalso. apply Nr. rewrite E. rewrite !in_app_iff. left. left. right. left. reflexivity.
  - exfalso. apply Ns. rewrite <- E. rewrite !in_app_iff. left. left. right. left. reflexivity.
  - rewrite <- !app_assoc in E. inversion Fa; inversion Fb; subst. apply (split_at ","%char) in E; [|assumption..]. destruct E as (-> & E).
    apply IH in E; try assumption. destruct E as (-> & ->). auto.
Qed.
Lemma bracketed_inj a : forall b r s, Forall (fun t => ~ In "]"%char t) a -> Forall (fun t => ~ In "]"%char t) b -> ~ In "]"%char r -> ~ In "]"%char s ->
  flat_map (fun l => T "[" ++ l ++ T "]") a ++ r = flat_map (fun l => T "[" ++ l ++ T "]") b ++ s -> a = b /\ r = s.
Proof.
  induction a as [|x a IH]; intros [|y b] r s Fa Fb Nr Ns E; cbn [flat_map app] in E.
  - auto.
  - exfalso. apply Nr. rewrite E. cbn. rewrite !in_app_iff. cbn. tauto.
  - exfalso. apply Ns. rewrite <- E. cbn. rewrite !in_app_iff. cbn. tauto.
  - rewrite <- !app_assoc in E. apply app_inv_head in E. inversion Fa; inversion Fb; subst. apply (split_at "]"%char) in E; [|assumption..]. destruct E as (-> & E).
    apply IH in E; try assumption. destruct E as (-> & ->). auto.
Qed.
Record plain_entry (e : entry) : Prop := PlainEntry {
  pe_name : ~ In newline (e_name e);
  pe_locations : Forall (fun l => ~ In newline l /\ ~ In "]"%char l) (e_locations e);
  pe_parent : forall p, e_parent e = Some p -> ~ In newline p;
  pe_children : Forall (fun c => ~ In newline c /\ ~ In ","%char c) (e_children e)
}.
Lemma cons_eq {A} (a b : A) r s : a :: r = b :: s -> a = b /\ r = s.
Proof. apply cons_parts. Qed.
Definition values_lines (v : option values) : list text :=
  match v with
  | None => []
  | Some (VRange lo hi) => [T "  minValue: " ++ print_Z lo ++ T ","; T "  maxValue: " ++ print_Z hi]
  | Some (VList vs) => [T "  values: [" ++ enumerated (map print_Z vs) ++ T "]"]
  end.
Definition children_line (cs : list text) (v : option values) : text := T "  children: [" ++ enumerated cs ++ match v with None => T "]" | Some _ => T "]," end.
Lemma split_last_char {A} (x y : list A) a b : x ++ [a] = y ++ [b] -> x = y /\ a = b.
Proof. apply app_inj_tail. Qed.
Lemma tail_inj cs v cs' v' r r' : Forall (fun c => ~ In ","%char c) cs -> Forall (fun c => ~ In ","%char c) cs' ->
  children_line cs v :: values_lines v ++ T "}" :: r = children_line cs' v' :: values_lines v' ++ T "}" :: r' -> cs = cs' /\ v = v' /\ r = r'.
Proof.
  intros F F' E. apply cons_eq in E. destruct E as (E1 & E2). unfold children_line in E1. apply app_inv_head in E1.
  assert (cs = cs' /\ (v = None <-> v' = None)) as (-> & Nn).
  { destruct v as [v|], v' as [v'|].
    - change (T "],") with (T "]" ++ [","%char]) in E1. rewrite !app_assoc in E1. apply split_last_char in E1. destruct E1 as (E1 & _).
      apply enumerated_inj in E1; [|assumption|assumption|intros [X|[]]; discriminate X..]. destruct E1 as (-> & _). split; [reflexivity|]. split; discriminate.
    - exfalso. change (T "],") with (T "]" ++ [","%char]) in E1. rewrite !app_assoc in E1. apply (split_last_char _ (enumerated cs') _ "]"%char) in E1. destruct E1 as (_ & X). discriminate X.
    - exfalso. change (T "],") with (T "]" ++ [","%char]) in E1. rewrite !app_assoc in E1. apply (split_last_char (enumerated cs) _ "]"%char) in E1. destruct E1 as (_ & X). discriminate X.
    - apply enumerated_inj in E1; [|assumption|assumption|intros [X|[]]; discriminate X..]. destruct E1 as (-> & _). split; [reflexivity|]. tauto. }
  split; [reflexivity|].
  assert (forall vs, Forall (fun t => ~ In ","%char t) (map print_Z vs)) as Fv.
  { intros vs. apply Forall_forall. intros t I. apply in_map_iff in I. destruct I as (z & <- & _). apply print_Z_no; [reflexivity|discriminate]. }
  destruct v as [[lo hi|vs]|], v' as [[lo' hi'|vs']|]; cbn [values_lines app] in E2; try (exfalso; destruct Nn as (Na & Nb); try discriminate (Na eq_refl); try discriminate (Nb eq_refl); fail).
  - apply cons_eq in E2. destruct E2 as (E2 & E3). apply cons_eq in E3. destruct E3 as (E3 & E4). apply cons_eq in E4. destruct E4 as (_ & ->).
    apply app_inv_head in E2, E3. apply app_inv_tail in E2. apply print_Z_inj in E2, E3. subst. auto.
  - exfalso. apply cons_eq in E2. destruct E2 as (E2 & _). discriminate E2.
  - exfalso. apply cons_eq in E2. destruct E2 as (E2 & _). discriminate E2.
  - apply cons_eq in E2. destruct E2 as (E2 & E3). apply cons_eq in E3. destruct E3 as (_ & ->). apply app_inv_head in E2.
    apply enumerated_inj in E2; [|apply Fv|apply Fv|intros [X|[]]; discriminate X..]. destruct E2 as (E2 & _).
    assert (vs = vs') as ->; [|auto]. clear -E2. revert vs' E2. induction vs as [|z vs IH]; intros [|z' vs'] E2; try discriminate E2; [reflexivity|]. cbn [map] in E2. apply cons_eq in E2. destruct E2 as (E & E2).
    apply print_Z_inj in E. subst. f_equal. auto.
  - apply cons_eq in E2. destruct E2 as (_ & ->). auto.
Qed.
Lemma entry_lines_eq e : entry_lines e =
  T "{" :: (T "  name: " ++ in_quotes (e_name e) ++ T ",") :: (T "  optional: " ++ (if e_optional e then T "true" else T "false") ++ T ",") ::
  match e_locations e with [] => [] | ls => [T "  locations: " ++ flat_map (fun l => T "[" ++ l ++ T "]") ls ++ T ","] end ++
  match e_parent e with None => [] | Some p => [T "  parent: " ++ p ++ T ","] end ++
  children_line (e_children e) (e_values e) :: values_lines (e_values e) ++ [T "}"].
Proof. reflexivity. Qed.
Lemma entry_inj e e' r r' : plain_entry e -> plain_entry e' -> entry_lines e ++ r = entry_lines e' ++ r' -> e = e' /\ r = r'.
Proof.
  intros [Pn Pl Pp Pc] [Pn' Pl' Pp' Pc'] E. rewrite !entry_lines_eq in E. cbn [app] in E.
  apply cons_eq in E. destruct E as (_ & E). apply cons_eq in E. destruct E as (E1 & E). apply cons_eq in E. destruct E as (E2 & E).
  apply app_inv_head in E1. apply app_inv_tail in E1. apply app_inv_head in E1. apply app_inv_tail in E1.
  assert (e_optional e = e_optional e') as Eo by (destruct (e_optional e), (e_optional e'); try reflexivity; discriminate E2). clear E2.
  rewrite <- !app_assoc in E. cbn [app] in E. rewrite <- !app_assoc in E. cbn [app] in E.
  assert (Forall (fun c => ~ In ","%char c) (e_children e) /\ Forall (fun c => ~ In ","%char c) (e_children e')) as (C1 & C2).
  { split; eapply Forall_impl; try eassumption; cbn; tauto. }
  assert (e_locations e = e_locations e' /\
    match e_parent e with None => [] | Some p => [T "  parent: " ++ p ++ T ","] end ++ children_line (e_children e) (e_values e) :: values_lines (e_values e) ++ T "}" :: r =
    match e_parent e' with None => [] | Some p => [T "  parent: " ++ p ++ T ","] end ++ children_line (e_children e') (e_values e') :: values_lines (e_values e') ++ T "}" :: r') as (El & E').
  { destruct (e_locations e) as [|l ls], (e_locations e') as [|l' ls']; cbn [app] in E.
    - auto.
    - exfalso. destruct (e_parent e); cbn [app] in E; apply cons_eq in E; destruct E as (E & _); discriminate E.
    - exfalso. destruct (e_parent e'); cbn [app] in E; apply cons_eq in E; destruct E as (E & _); discriminate E.
    - apply cons_eq in E. destruct E as (E & E'). split; [|exact E']. apply app_inv_head in E.
      apply bracketed_inj in E; [tauto|eapply Forall_impl; [|exact Pl]; cbn; tauto|eapply Forall_impl; [|exact Pl']; cbn; tauto|intros [X|[]]; discriminate X..]. }
  assert (e_parent e = e_parent e' /\ children_line (e_children e) (e_values e) :: values_lines (e_values e) ++ T "}" :: r = children_line (e_children e') (e_values e') :: values_lines (e_values e') ++ T "}" :: r') as (Ep & E'').
  { destruct (e_parent e) as [p|], (e_parent e') as [p'|]; cbn [app] in E'.
    - apply cons_eq in E'. destruct E' as (F & E'). split; [|exact E']. apply app_inv_head in F. apply app_inv_tail in F. congruence.
    - exfalso. apply cons_eq in E'. destruct E' as (F & _). discriminate F.
    - exfalso. apply cons_eq in E'. destruct E' as (F & _). discriminate F.
    - auto. }
  apply tail_inj in E''; [|assumption..]. destruct E'' as (Ec & Ev & ->). split; [|reflexivity]. destruct e, e'. cbn in *. congruence.
Qed.
Lemma no_nl_app (a b : text) : ~ In newline a -> ~ In newline b -> ~ In newline (a ++ b).
Proof. intros A B I. apply in_app_iff in I. tauto. Qed.
Lemma entry_line e l : plain_entry e -> In l (entry_lines e) -> ~ In newline l.
Proof.
  intros [Pn Pl Pp Pc] I. rewrite entry_lines_eq in I.
  assert (forall ts, Forall (fun t => ~ In newline t) ts -> ~ In newline (enumerated ts)) as Ne.
  { intros ts F J. unfold enumerated in J. apply in_flat_map in J. destruct J as (t & It & J). rewrite Forall_forall in F. apply in_app_iff in J. destruct J as [J|[J|[]]]; [exact (F t It J)|discriminate J]. }
  assert (forall z, ~ In newline (print_Z z)) as Nz by (intros z; apply print_Z_no; [reflexivity|discriminate]).
  destruct I as [<-|[<-|[<-|I]]].
  - apply no_newline_dec. reflexivity.
  - unfold in_quotes. repeat first [assumption | apply no_nl_app | apply no_newline_dec; reflexivity].
  - destruct (e_optional e); apply no_newline_dec; reflexivity.
  - rewrite !in_app_iff in I. destruct I as [I|[I|I]].
    + destruct (e_locations e) as [|x xs]; [contradiction|]. destruct I as [<-|[]]. apply no_nl_app; [apply no_newline_dec; reflexivity|]. apply no_nl_app; [|apply no_newline_dec; reflexivity].
      intros J. apply in_flat_map in J. destruct J as (t & It & J). rewrite Forall_forall in Pl. specialize (Pl t It). revert J. apply no_nl_app; [apply no_newline_dec; reflexivity|]. apply no_nl_app; [tauto|apply no_newline_dec; reflexivity].
    + destruct (e_parent e) as [p|]; [|contradiction]. destruct I as [<-|[]]. specialize (Pp p eq_refl). repeat first [assumption | apply no_nl_app | apply no_newline_dec; reflexivity].
    + destruct I as [<-|I].
      * unfold children_line. apply no_nl_app; [apply no_newline_dec; reflexivity|]. apply no_nl_app; [|destruct (e_values e); apply no_newline_dec; reflexivity].
        apply Ne. eapply Forall_impl; [|exact Pc]. cbn. tauto.
      * apply in_app_iff in I. destruct I as [I|[<-|[]]]; [|apply no_newline_dec; reflexivity]. destruct (e_values e) as [[lo hi|vs]|]; cbn [values_lines] in I.
        -- destruct I as [<-|[<-|[]]]; repeat first [apply Nz | apply no_nl_app | apply no_newline_dec; reflexivity].
        -- destruct I as [<-|[]]. apply no_nl_app; [apply no_newline_dec; reflexivity|]. apply no_nl_app; [|apply no_newline_dec; reflexivity]. apply Ne. apply Forall_forall. intros t It. apply in_map_iff in It. destruct It as (z & <- & _). apply Nz.
        -- contradiction.
Qed.
Lemma on_lines_inj a : forall b, Forall (fun l => ~ In newline l) a -> Forall (fun l => ~ In newline l) b -> on_lines a = on_lines b -> a = b.
Proof.
  unfold on_lines. induction a as [|x a IH]; intros [|y b] Fa Fb E; cbn [flat_map] in E.
  - reflexivity.
  - exfalso. destruct y; discriminate E.
  - exfalso. destruct x; discriminate E.
  - rewrite <- !app_assoc in E. inversion Fa; inversion Fb; subst. apply (split_at newline) in E; [|assumption..]. destruct E as (-> & E). f_equal. auto.
Qed.
Lemma entries_inj es : forall es', Forall plain_entry es -> Forall plain_entry es' -> flat_map entry_lines es ++ [[]] = flat_map entry_lines es' ++ [[]] -> es = es'.
Proof.
  induction es as [|e es IH]; intros [|e' es'] F F' E; cbn [flat_map] in E.
  - reflexivity.
  - exfalso. rewrite entry_lines_eq in E. cbn [app] in E. apply cons_eq in E. destruct E as (E & _). discriminate E.
  - exfalso. rewrite entry_lines_eq in E. cbn [app] in E. apply cons_eq in E. destruct E as (E & _). discriminate E.
  - inversion F; inversion F'; subst. rewrite <- !app_assoc in E. apply entry_inj in E; [|assumption..]. destruct E as (-> & E). f_equal. auto.
Qed.
Lemma dumped_inj es es' : Forall plain_entry es -> Forall plain_entry es' -> dumped es = dumped es' -> es = es'.
Proof.
  intros F F' E. apply entries_inj; [assumption..|]. apply on_lines_inj; [| |exact E].
  all: apply Forall_app; split; [|constructor; [intros []|constructor]]; apply Forall_forall; intros l I; apply in_flat_map in I; destruct I as (e & Ie & I); eapply entry_line; [|exact I].
  - rewrite Forall_forall in F. auto.
  - rewrite Forall_forall in F'. auto.
Qed.

Lemma states_plain t u e : printable t -> subtree u t -> states t u e -> plain_entry e.
Proof.
  intros P U [(f & D & En & Eo & El & Ev) Sr Sp Sc]. destruct (P u f U D) as (N1 & N2 & N3). constructor.
  - rewrite En. exact N1.
  - rewrite El. apply Forall_forall. intros l I. apply in_map_iff in I. destruct I as (r & <- & I). auto.
  - intros p Ep. destruct (Nat.eq_dec (rid u) (rid t)) as [E|N]; [rewrite (Sr E) in Ep; discriminate|]. apply (Sp p N) in Ep. destruct Ep as (v & g & V & Dv & _ & ->). destruct (P v g V Dv) as (Q & _). exact Q.
  - rewrite Sc. apply Forall_forall. intros c I. apply in_flat_map in I. destruct I as (k & Ik & I). destruct (rdata k) as [g|] eqn:Dk; [|contradiction]. destruct I as [<-|[]].
    assert (subtree k t) as K by (eapply subtree_trans; [|exact U]; destruct u; apply subtree_kid; exact Ik). destruct (P k g K Dk) as (Q1 & Q2 & _). auto.
Qed.
Lemma lists_plain t es : printable t -> lists t es -> Forall plain_entry es.
Proof.
  intros P (us & _ & Us & F). assert (forall u, In u us -> subtree u t) as S1 by (intros u I; apply Us; exact I). clear Us.
  induction F as [|u e us es St F IH]; constructor; [eapply states_plain; eauto; apply S1; left; reflexivity|]. apply IH. intros v I. apply S1. right. exact I.
Qed.
Lemma dumps_tell_the_features order h m t order' h' m' t' x : (forall l, Permutation (order l) l) -> (forall l, Permutation (order' l) l) ->
  represents h m t -> printable t -> represents h' m' t' -> printable t' ->
  dump_model order h m = Some x -> dump_model order' h' m' = Some x -> exists es, lists t es /\ lists t' es.
Proof.
  intros Or Or' R P R' P' D D'. destruct (dump_lists order h m t R Or) as (es & E & L). destruct (dump_lists order' h' m' t' R' Or') as (es' & E' & L').
  rewrite D in E. injection E as E. rewrite D' in E'. injection E' as E'. exists es. split; [exact L|].
  assert (es = es') as ->; [|exact L']. apply dumped_inj; [exact (lists_plain t es P L)|exact (lists_plain t' es' P' L')|congruence].
Qed.

(** ** Parents and children *)
Lemma lists_entry t es : lists t es -> forall u, subtree u t -> is_feature (rdata u) = true -> exists e, In e es /\ states t u e.
Proof.
  intros (us & _ & Us & F) u U Fe. assert (In u us) as I by (apply Us; auto). clear Us. induction F as [|v e us es St F IH]; [contradiction|]. destruct I as [->|I].
  - exists e. split; [left; reflexivity|exact St].
  - destruct (IH I) as (e' & Ie & Se). exists e'. split; [right; exact Ie|exact Se].
Qed.
Lemma entry_listed t es : lists t es -> forall e, In e es -> exists u, subtree u t /\ is_feature (rdata u) = true /\ states t u e.
Proof.
  intros (us & _ & Us & F) e I. assert (forall u, In u us -> subtree u t /\ is_feature (rdata u) = true) as S1 by (intros u Iu; apply Us; exact Iu). clear Us.
  induction F as [|v e' us es St F IH]; [contradiction|]. destruct I as [->|I].
  - exists v. destruct (S1 v (or_introl eq_refl)). auto.
  - apply IH; [exact I|]. intros u Iu. apply S1. right. exact Iu.
Qed.
Lemma near_kid k ts : In k ts -> is_feature (rdata k) = true -> In k (near ts).
Proof. intros I F. apply in_flat_map. exists k. split; [exact I|]. destruct k as [n d ks]. cbn [rdata] in F. cbn [tops]. rewrite F. left. reflexivity. Qed.
Lemma children_name_their_parent h m t es : represents h m t -> lists t es -> forall e c, In e es -> In c (e_children e) -> exists e', In e' es /\ e_name e' = c /\ e_parent e' = Some (e_name e).
Proof.
  intros R L e c Ie Ic. destruct (entry_listed t es L e Ie) as (u & U & F & St). rewrite (st_children _ _ _ St) in Ic. apply in_flat_map in Ic. destruct Ic as (k & Ik & Ic).
  destruct (rdata k) as [g|] eqn:Dk; [|contradiction]. destruct Ic as [<-|[]].
  assert (subtree k t) as K by (eapply subtree_trans; [|exact U]; destruct u; apply subtree_kid; exact Ik).
  destruct (lists_entry t es L k K) as (e' & Ie' & St'); [rewrite Dk; reflexivity|]. exists e'. split; [exact Ie'|].
  destruct (st_feature _ _ _ St') as (g' & Dg & En & _). rewrite Dk in Dg. injection Dg as <-. split; [exact En|].
  destruct (st_feature _ _ _ St) as (f & Df & Ef & _). apply (st_parent _ _ _ St').
  - intros E. assert (k = t) as -> by (apply (subtree_unique t); [apply (rep_ids _ _ _ R)|exact K|constructor|exact E]). pose proof (subtree_height u t U) as Hu. destruct u as [n d ts]. cbn [kids] in Ik. pose proof (height_kid n d ts t Ik). lia.
  - exists u, f. split; [exact U|]. split; [exact Df|]. split; [|exact Ef]. apply near_kid; [exact Ik|rewrite Dk; reflexivity].
Qed.
Lemma near_ungrouped ts u : (forall k, In k ts -> is_feature (rdata k) = true) -> In u (near ts) -> In u ts.
Proof.
  intros A I. apply in_flat_map in I. destruct I as (k & Ik & I). pose proof (A k Ik) as F. destruct k as [n d ks]. cbn [rdata] in F. cbn [tops] in I. rewrite F in I. destruct I as [<-|[]]. exact Ik.
Qed.
Lemma parents_list_their_children t es : ungrouped t -> lists t es -> forall e p, In e es -> e_parent e = Some p -> exists e', In e' es /\ e_name e' = p /\ In (e_name e) (e_children e').
Proof.
  intros Un L e p Ie Ep. destruct (entry_listed t es L e Ie) as (u & U & F & St).
  destruct (Nat.eq_dec (rid u) (rid t)) as [E|N]; [rewrite (st_root _ _ _ St E) in Ep; discriminate|]. apply (st_parent _ _ _ St p N) in Ep. destruct Ep as (v & g & V & Dv & I & ->).
  destruct (lists_entry t es L v V (Un v V)) as (e' & Ie' & St'). exists e'. split; [exact Ie'|]. destruct (st_feature _ _ _ St') as (g' & Dg & En & _). rewrite Dv in Dg. injection Dg as <-. split; [exact En|].
  rewrite (st_children _ _ _ St'). apply near_ungrouped in I.
  - apply in_flat_map. exists u. split; [exact I|]. destruct (st_feature _ _ _ St) as (f & -> & -> & _). left. reflexivity.
  - intros k Ik. apply Un. eapply subtree_trans; [|exact V]. destruct v. apply subtree_kid. exact Ik.
Qed.
